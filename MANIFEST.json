{
 "claims": [
  {
   "property": "C01",
   "status": "proved",
   "theorems": [
    "C01_check_accepts",
    "C01_check_raises",
    "C01_check_never_false"
   ],
   "note": ""
  },
  {
   "property": "C02",
   "status": "proved",
   "theorems": [
    "C02_generated_valid"
   ],
   "note": "assumes draws in [-1/2,1/2] and cos^2+sin^2 within 1e-6 of 1"
  },
  {
   "property": "C03",
   "status": "proved",
   "theorems": [
    "C03_reproducible"
   ],
   "note": ""
  },
  {
   "property": "C04",
   "status": "proved",
   "theorems": [
    "C04_checked_coordinates",
    "C04_heights_refuted",
    "C04_lengths_refuted"
   ],
   "note": "x, y, u, v, w are finite; refuted for z and for l (witnesses)"
  },
  {
   "property": "C05",
   "status": "proved",
   "theorems": [
    "C05_total",
    "C05_only_failures",
    "C05_valid",
    "C05_rows_numbered",
    "C05_rows_increasing",
    "C05_attributes"
   ],
   "note": "finite geometry (representability of checked tables is theorem finite_mats_representable)"
  },
  {
   "property": "C06",
   "status": "proved",
   "theorems": [
    "C06_end_nodes",
    "C06_end_abscissae"
   ],
   "note": ""
  },
  {
   "property": "C07",
   "status": "proved",
   "theorems": [
    "C07_inside"
   ],
   "note": ""
  },
  {
   "property": "C08",
   "status": "proved",
   "theorems": [
    "C08_on_axes"
   ],
   "note": ""
  },
  {
   "property": "C09",
   "status": "proved",
   "theorems": [
    "C09_nearest"
   ],
   "note": ""
  },
  {
   "property": "C10",
   "status": "proved",
   "theorems": [
    "C10_coincide"
   ],
   "note": ""
  },
  {
   "property": "C11",
   "status": "proved",
   "theorems": [
    "C11_crossings",
    "C11_parallel",
    "C11_slack_norm_refuted"
   ],
   "note": "needs orientation vectors not longer than 1; refuted without (witness within the tolerance of Mat.check)"
  },
  {
   "property": "C12",
   "status": "proved",
   "theorems": [
    "C12_periodic_crossings"
   ],
   "note": "needs orientation vectors not longer than 1"
  },
  {
   "property": "C13",
   "status": "proved",
   "theorems": [
    "C13_no_loss",
    "C13_one_image",
    "C13_long_fibers_refuted"
   ],
   "note": "loss for longer fibers shown by C13_long_fibers_refuted"
  },
  {
   "property": "C14",
   "status": "proved",
   "theorems": [
    "C14_heights"
   ],
   "note": "abscissae and coordinates equal as rational numbers"
  },
  {
   "property": "C15",
   "status": "proved",
   "theorems": [
    "C15_check_accepts",
    "C15_check_raises",
    "C15_check_never_false"
   ],
   "note": ""
  },
  {
   "property": "C16",
   "status": "proved",
   "theorems": [
    "C16_total",
    "C16_feasible",
    "C16_weights"
   ],
   "note": ""
  },
  {
   "property": "C17",
   "status": "proved",
   "theorems": [
    "C17_optimum_exists",
    "C17_optimum_unique",
    "C17_sweep_optimal",
    "C17_networks_by_A"
   ],
   "note": ""
  },
  {
   "property": "C18",
   "status": "proved",
   "theorems": [
    "C18_total",
    "C18_heights",
    "C18_rows",
    "C18_pairs_refuted"
   ],
   "note": "linprog assumed to return an optimum of the program it is given; refuted for networks built with a pairs argument"
  },
  {
   "property": "C19",
   "status": "proved",
   "theorems": [
    "C19_threshold"
   ],
   "note": ""
  },
  {
   "property": "C20",
   "status": "proved",
   "theorems": [
    "C20_idempotent",
    "C20_idempotent_stack",
    "C20_threshold_refuted"
   ],
   "note": "linprog deterministic and optimal; refuted when restacking from a thresholded stack"
  },
  {
   "property": "C21",
   "status": "proved",
   "theorems": [
    "C21_top",
    "C21_uniform"
   ],
   "note": ""
  },
  {
   "property": "C22",
   "status": "proved",
   "theorems": [
    "C22_same_rows",
    "C22_pairs_refuted"
   ],
   "note": "for Net(mat, periodic); the pairs case is refuted"
  },
  {
   "property": "C23",
   "status": "proved",
   "theorems": [
    "C23_nodes"
   ],
   "note": ""
  },
  {
   "property": "C24",
   "status": "proved",
   "theorems": [
    "C24_order",
    "C24_beams_permute"
   ],
   "note": ""
  },
  {
   "property": "C25",
   "status": "proved",
   "theorems": [
    "C25_constraints"
   ],
   "note": ""
  },
  {
   "property": "C26",
   "status": "proved",
   "theorems": [
    "C26_check_accepts",
    "C26_check_raises",
    "C26_check_never_false"
   ],
   "note": ""
  },
  {
   "property": "C27",
   "status": "proved",
   "theorems": [
    "C27_net",
    "C27_stack",
    "C27_framed",
    "C27_new_is_init",
    "C27_pairs_refuted"
   ],
   "note": "linprog optimal for the stack part; refuted for networks built with a pairs argument"
  },
  {
   "property": "C28",
   "status": "proved",
   "theorems": [
    "C28_net",
    "C28_stack",
    "C28_lengths_nonneg"
   ],
   "note": ""
  },
  {
   "property": "C29",
   "status": "proved",
   "theorems": [
    "C29_total",
    "C29_symmetric",
    "C29_local"
   ],
   "note": ""
  },
  {
   "property": "C30",
   "status": "proved",
   "theorems": [
    "C30_finite",
    "C30_psd",
    "C30_concurrent_refuted",
    "C30_coupling_refuted"
   ],
   "note": "finite when no two neighbours of a fiber coincide; refuted for coupling > 1 and, for finiteness, when three fibers meet at one point"
  },
  {
   "property": "C31",
   "status": "proved",
   "theorems": [
    "C31_translations",
    "C31_kernel",
    "C31_kernel_coupled"
   ],
   "note": ""
  },
  {
   "property": "C32",
   "status": "proved",
   "theorems": [
    "C32_lengths",
    "C32_lmin_refuted"
   ],
   "note": "a lone lmin is refuted to be a lower bound"
  },
  {
   "property": "C33",
   "status": "proved",
   "theorems": [
    "C33_displacements",
    "C33_rotations",
    "C33_limit"
   ],
   "note": ""
  },
  {
   "property": "C34",
   "status": "proved",
   "theorems": [
    "C34_total",
    "C34_admissible",
    "C34_moved_lid",
    "C34_top"
   ],
   "note": ""
  },
  {
   "property": "C35",
   "status": "proved",
   "theorems": [
    "C35_start"
   ],
   "note": "linprog optimal"
  },
  {
   "property": "C36",
   "status": "proved",
   "theorems": [
    "C36_total",
    "C36_history",
    "C36_lengths",
    "C36_itermax",
    "C36_default_packing"
   ],
   "note": "any linear solver; st_err2 is the square of the recorded error"
  },
  {
   "property": "C37",
   "status": "proved",
   "theorems": [
    "C37_residual",
    "C37_exact",
    "C37_stacked"
   ],
   "note": "solver answers all finite, or all finite or all NaN under failures_detectable; C37_stacked assumes an optimal linprog"
  },
  {
   "property": "C38",
   "status": "proved",
   "theorems": [
    "C38_displacements",
    "C38_all",
    "C38_load"
   ],
   "note": ""
  },
  {
   "property": "C39",
   "status": "proved",
   "theorems": [
    "C39_contacts",
    "C39_persist"
   ],
   "note": ""
  },
  {
   "property": "C40",
   "status": "proved",
   "theorems": [
    "C40_steps",
    "C40_bound"
   ],
   "note": ""
  },
  {
   "property": "C41",
   "status": "proved",
   "theorems": [
    "C41_lid",
    "C41_packing"
   ],
   "note": ""
  },
  {
   "property": "C42",
   "status": "proved",
   "theorems": [
    "C42_fiber",
    "C42_total"
   ],
   "note": ""
  },
  {
   "property": "C43",
   "status": "proved",
   "theorems": [
    "C43_same_results",
    "C43_increment"
   ],
   "note": "The whole recorded history is the same, value by value, for any two numberings, for every linear solver that is exact on systems with one solution; the increments solve the equations of the closed rows. Hypothesis: each visited system has one solution. The exact elimination used in the examples is proved to be such a solver."
  },
  {
   "property": "C44",
   "status": "proved",
   "theorems": [
    "C44_prefix",
    "C44_finite",
    "C44_zero_length_refuted",
    "C44_partly_nan_refuted"
   ],
   "note": "refuted for coinciding nodes and for partly NaN answers"
  },
  {
   "property": "C45",
   "status": "proved",
   "theorems": [
    "C45_rotation"
   ],
   "note": ""
  },
  {
   "property": "C46",
   "status": "proved",
   "theorems": [
    "C46_linear",
    "C46_samples",
    "C46_ends",
    "C46_resample",
    "C46_all"
   ],
   "note": ""
  },
  {
   "property": "C47",
   "status": "proved",
   "theorems": [
    "C47_neighbours",
    "C47_between",
    "C47_increasing",
    "C47_decreasing"
   ],
   "note": ""
  },
  {
   "property": "C48",
   "status": "proved",
   "theorems": [
    "C48_last"
   ],
   "note": ""
  },
  {
   "property": "C49",
   "status": "proved",
   "theorems": [
    "C49_step",
    "C49_single"
   ],
   "note": ""
  },
  {
   "property": "C50",
   "status": "proved",
   "theorems": [
    "C50_finite",
    "C50_single_refuted",
    "C50_unbounded_refuted"
   ],
   "note": "the two exceptions are refutations holding in every run"
  },
  {
   "property": "C51",
   "status": "proved",
   "theorems": [
    "C51_located",
    "C51_net",
    "C51_stack",
    "C51_nearest_exists",
    "C51_coincident_refuted"
   ],
   "note": "the tree is an oracle returning any nearest node; coinciding nodes are a refutation"
  },
  {
   "property": "C52",
   "status": "proved",
   "theorems": [
    "C52_value",
    "C52_node",
    "C52_slope",
    "C52_between"
   ],
   "note": ""
  },
  {
   "property": "C53",
   "status": "proved",
   "theorems": [
    "C53_error",
    "C53_unit",
    "C53_refuted"
   ],
   "note": "exact error term; exact for unit elements, the general statement is refuted"
  },
  {
   "property": "C54",
   "status": "proved",
   "theorems": [
    "C54_last",
    "C54_untouched",
    "C54_accepts",
    "C54_failed",
    "C54_reassign",
    "C54_failed_refuted",
    "C54_theta_refuted"
   ],
   "note": "two refuted clauses: reassigning theta, rejected values"
  },
  {
   "property": "C55",
   "status": "proved",
   "theorems": [
    "C55_views",
    "C55_wrap",
    "C55_family",
    "C55_others",
    "C55_build",
    "C55_copy_refuted",
    "C55_empty_stack_refuted"
   ],
   "note": "heap semantics refines a heap-free one; two refuted readings"
  },
  {
   "property": "C56",
   "status": "proved",
   "theorems": [
    "C56_rows_kept",
    "C56_thickness",
    "C56_still_valid",
    "C56_twice"
   ],
   "note": ""
  },
  {
   "property": "C57",
   "status": "proved",
   "theorems": [
    "C57_assembly"
   ],
   "note": ""
  },
  {
   "property": "C58",
   "status": "proved",
   "theorems": [
    "C58_downward_refuted",
    "C58_pushing_refuted"
   ],
   "note": "both sign conditions are refuted"
  },
  {
   "property": "C59",
   "status": "proved",
   "theorems": [
    "C59_admissible",
    "C59_equilibrium"
   ],
   "note": ""
  },
  {
   "property": "C60",
   "status": "proved",
   "theorems": [
    "C60_lid",
    "C60_stretch",
    "C60_product",
    "C60_ratio_refuted"
   ],
   "note": "rlambda(t) = Z(0)/Z(t) is refuted"
  },
  {
   "property": "C61",
   "status": "proved",
   "theorems": [
    "C61_value",
    "C61_unit",
    "C61_refuted"
   ],
   "note": "exact for unit elements, the general statement is refuted"
  },
  {
   "property": "C62",
   "status": "proved",
   "theorems": [
    "C62_reads",
    "C62_total",
    "C62_given",
    "C62_defaults",
    "C62_infinity_refuted",
    "C62_thickness_refuted"
   ],
   "note": "refuted for other infinities than np.inf and for zero thickness"
  },
  {
   "property": "C63",
   "status": "proved",
   "theorems": [
    "C63_new",
    "C63_net",
    "C63_mesh",
    "C63_stack",
    "C63_stack_refuted"
   ],
   "note": ""
  },
  {
   "property": "C64",
   "status": "proved",
   "theorems": [
    "C64_draws",
    "C64_angles",
    "C64_flat",
    "C64_raises"
   ],
   "note": "the generator is an oracle; C64_angles assumes draws in [-1/2,1/2]"
  },
  {
   "property": "C65",
   "status": "proved",
   "theorems": [
    "C65_connections",
    "C65_feet",
    "C65_cross_from_above_refuted"
   ],
   "note": "lengths at most the box size in periodic mode; crossing seen from above is refuted"
  },
  {
   "property": "C66",
   "status": "proved",
   "theorems": [
    "C66_first_mask",
    "C66_next_mask",
    "C66_new_contact",
    "C66_late",
    "C66_same_state_refuted"
   ],
   "note": "the reading \"mask of its own state\" is refuted; hypotheses on the solver as in C37"
  },
  {
   "property": "C67",
   "status": "proved",
   "theorems": [
    "C67_rows",
    "C67_region"
   ],
   "note": ""
  },
  {
   "property": "C68",
   "status": "proved",
   "theorems": [
    "C68_fields",
    "C68_bounds",
    "C68_lid",
    "C68_mask",
    "C68_mask_single",
    "C68_mask_outside"
   ],
   "note": "rows of H without bound are NaN between states (C50)"
  },
  {
   "property": "C69",
   "status": "proved",
   "theorems": [
    "C69_cases",
    "C69_value",
    "C69_unknown",
    "C69_beyond"
   ],
   "note": "the tree is an oracle returning any nearest node"
  },
  {
   "property": "C70",
   "status": "proved",
   "theorems": [
    "C70_proposed",
    "C70_off",
    "C70_back",
    "C70_others"
   ],
   "note": ""
  },
  {
   "property": "C71",
   "status": "proved",
   "theorems": [
    "C71_forces",
    "C71_certified",
    "C71_exists",
    "C71_floor",
    "C71_load",
    "C71_load_bound",
    "C71_unique_refuted"
   ],
   "note": "linprog is an oracle: the marginals are a dual optimum of equal value; uniqueness of the forces is refuted"
  },
  {
   "property": "C72",
   "status": "proved",
   "theorems": [
    "C72_joined",
    "C72_linked",
    "C72_short"
   ],
   "note": ""
  },
  {
   "property": "C73",
   "status": "proved",
   "theorems": [
    "C73_contains"
   ],
   "note": ""
  },
  {
   "property": "C74",
   "status": "proved",
   "theorems": [
    "C74_above",
    "C74_same",
    "C74_order_refuted"
   ],
   "note": "linprog optimal; lengths at most the box size in periodic mode; independence of the order is refuted"
  },
  {
   "property": "C75",
   "status": "proved",
   "theorems": [
    "C75_seen",
    "C75_results",
    "C75_units",
    "C75_tol_refuted"
   ],
   "note": "exact linear solvers and regular systems are hypotheses; with an unscaled tolerance the claim is refuted"
  },
  {
   "property": "C76",
   "status": "proved",
   "theorems": [
    "C76_net",
    "C76_stack",
    "C76_total",
    "C76_points",
    "C76_lengths"
   ],
   "note": "cylinder points, their placement and the tree are oracles; curvature at the last node of an element is left open"
  },
  {
   "property": "C77",
   "status": "proved",
   "theorems": [
    "C77_tiling",
    "C77_reach",
    "C77_refuted"
   ],
   "note": "refuted for fibers longer than the period"
  },
  {
   "property": "C78",
   "status": "proved",
   "theorems": [
    "C78_total",
    "C78_colours",
    "C78_error",
    "C78_contacts",
    "C78_undrawn_refuted",
    "C78_open_refuted"
   ],
   "note": "errors are compared as squares; without a clear cut between tol and the tolerances of isclose the claim on contacts is refuted both ways"
  },
  {
   "property": "C79",
   "status": "proved",
   "theorems": [
    "C79_read",
    "C79_total",
    "C79_fibers",
    "C79_shown",
    "C79_balance",
    "C79_fiber",
    "C79_admissible",
    "C79_seeded",
    "C79_empty",
    "C79_samples_refuted"
   ],
   "note": "the pictures shown and the file written are not modelled; with the default error tolerance the linear solver is assumed to give numbers"
  },
  {
   "property": "C80",
   "status": "proved",
   "theorems": [
    "C80_work",
    "C80_contacts",
    "C80_direct",
    "C80_direct_contacts"
   ],
   "note": "for errtol = 0; the lid force is taken linear between recorded states, as the solver interpolates it"
  },
  {
   "property": "C81",
   "status": "proved",
   "theorems": [
    "C81_minimum",
    "C81_unique",
    "C81_grows",
    "C81_pulling_refuted",
    "C81_direct"
   ],
   "note": "for errtol = 0; refuted when a contact pulls"
  },
  {
   "property": "C82",
   "status": "proved",
   "theorems": [
    "C82_total",
    "C82_beams",
    "C82_length",
    "C82_contacts",
    "C82_stack",
    "C82_marks",
    "C82_recorded",
    "C82_between",
    "C82_sizes",
    "C82_positions",
    "C82_connections_refuted"
   ],
   "note": "colour maps, axes and the 3D view are not modelled; deformed pictures for errtol = 0"
  },
  {
   "property": "C83",
   "status": "proved",
   "theorems": [
    "C83_empty",
    "C83_drawn",
    "C83_plane_refuted"
   ],
   "note": "for fibers in the plane (refuted otherwise); the marginals are assumed to be an optimum of the dual program"
  },
  {
   "property": "C84",
   "status": "proved",
   "theorems": [
    "C84_read",
    "C84_only",
    "C84_call",
    "C84_total",
    "C84_runs",
    "C84_contacts",
    "C84_script",
    "C84_shown",
    "C84_seeded",
    "C84_consistent",
    "C84_empty",
    "C84_settings_refuted",
    "C84_unseeded_refuted"
   ],
   "note": "psi = 0 as in the notebook; linear program, marginals, linear solver, cylinder and tree are oracles; display, colours and load interpolation are not modelled; refuted: n = 0, and without a seed"
  },
  {
   "property": "C85",
   "status": "proved",
   "theorems": [
    "C85_total",
    "C85_fibers",
    "C85_parts",
    "C85_shown",
    "C85_admissible"
   ],
   "note": "linear program, linear solver, cylinder and tree are oracles; non-overlap for errtol = 0 and fibers in the plane"
  },
  {
   "property": "C86",
   "status": "proved",
   "theorems": [
    "C86_names",
    "C86_square",
    "C86_logo",
    "C86_meant",
    "C86_scripts_refuted"
   ],
   "note": "imports that succeed outside the package (numpy, pandas, ...) are taken as given; display and saving are not modelled; refuted: the scripts as written"
  },
  {
   "property": "C87",
   "status": "proved",
   "theorems": [
    "C87_fibers",
    "C87_seeded",
    "C87_reused"
   ],
   "note": "the mask is transcribed bit by bit; on the right and upper borders of the frame (x = 29, y = 6) the cell is beyond the letters and unset"
  },
  {
   "property": "C88",
   "status": "proved",
   "theorems": [
    "C88_strict",
    "C88_regular",
    "C88_end",
    "C88_steps",
    "C88_admissible",
    "C88_contacts",
    "C88_balance",
    "C88_reaches",
    "C88_stacked",
    "C88_coupling_refuted",
    "C88_threshold_refuted"
   ],
   "note": "linear solvers are oracles: right when the system has one solution, else numbers or NaN throughout; refuted for coupling = 1 and for thresholds smaller than the thickness"
  },
  {
   "property": "C89",
   "status": "proved",
   "theorems": [
    "C89_seen",
    "C89_numbering",
    "C89_units"
   ],
   "note": "conditions as in C88 instead of the regular systems assumed in C43 and C75"
  },
  {
   "property": "C90",
   "status": "proved",
   "theorems": [
    "C90_errtol",
    "C90_total",
    "C90_admissible",
    "C90_end",
    "C90_reaches",
    "C90_numbering"
   ],
   "note": "psi = 0 and the options of main.py; linear program, linear solver, cylinder and tree are oracles"
  },
  {
   "property": "C91",
   "status": "proved",
   "theorems": [
    "C91_lines",
    "C91_nodes",
    "C91_colours",
    "C91_notebook",
    "C91_empty",
    "C91_unique_refuted"
   ],
   "note": "a colour is the number given to the colour map; the map itself, the axes and the view are not modelled; refuted: independence of the forces that linprog returns"
  },
  {
   "property": "C92",
   "status": "proved",
   "theorems": [
    "C92_modes",
    "C92_described",
    "C92_outside"
   ],
   "note": "the commands are those given to run_cell; what IPython does with them is not modelled"
  },
  {
   "property": "C93",
   "status": "proved",
   "theorems": [
    "C93_command",
    "C93_label",
    "C93_table",
    "C93_versions",
    "C93_names",
    "C93_script",
    "C93_session",
    "C93_shown_refuted",
    "C93_lines_refuted",
    "C93_blanks_refuted"
   ],
   "note": "the shell is an oracle; the tags of the table are not modelled; refuted: names with blanks, versions on several lines, Installed without a table"
  },
  {
   "property": "C94",
   "status": "proved",
   "theorems": [
    "C94_grows",
    "C94_pushes",
    "C94_energy",
    "C94_stiffens",
    "C94_spring",
    "C94_results",
    "C94_direct",
    "C94_direct_stiffens",
    "C94_direct_spring",
    "C94_coupling_refuted",
    "C94_contacts_refuted"
   ],
   "note": "the force on the lid is the sum of the forces of the lid contacts; hypotheses of C80 for exact steps, of C88 for direct solvers; refuted: single contact forces, coupling above 1"
  },
  {
   "property": "C95",
   "status": "proved",
   "theorems": [
    "C95_total",
    "C95_errtol",
    "C95_packs",
    "C95_main",
    "C95_square",
    "C95_logo",
    "C95_book",
    "C95_book_packs",
    "C95_cell7"
   ],
   "note": "square.py and logo.py as written stop (C86): proved for the scripts with the name solve; linear program, linear solver, cylinder and tree are oracles"
  },
  {
   "property": "C96",
   "status": "proved",
   "theorems": [
    "C96_raise",
    "C96_prefix",
    "C96_stop",
    "C96_results",
    "C96_errors",
    "C96_error",
    "C96_bound",
    "C96_direct",
    "C96_resampled_refuted"
   ],
   "note": "errors are compared as squares; reliable solvers for the functions of the pseudo-time; refuted: resampled functions"
  },
  {
   "property": "C97",
   "status": "proved",
   "theorems": [
    "C97_piles",
    "C97_floor",
    "C97_lid",
    "C97_above",
    "C97_same",
    "C97_reorder"
   ],
   "note": "heights compared as rationals; the linear program is an oracle that returns an optimum; a turn of a periodic box is a multiple of a quarter"
  },
  {
   "property": "C98",
   "status": "proved",
   "theorems": [
    "C98_linked",
    "C98_joined",
    "C98_long_refuted"
   ],
   "note": "exact rational arithmetic: the comparisons of the code are strict, rounding could change limit cases; refuted: fibers longer than the box"
  },
  {
   "property": "C99",
   "status": "proved",
   "theorems": [
    "C99_passes",
    "C99_raises",
    "C99_any",
    "C99_detects",
    "C99_flat",
    "C99_draws_refuted"
   ],
   "note": "the values drawn by np.random.normal are arguments; the other tests, which compare tables with literals, are run on the model in Conform.v; refuted: every draw"
  },
  {
   "property": "C100",
   "status": "proved",
   "theorems": [
    "C100_stack",
    "C100_ready",
    "C100_solve",
    "C100_pack"
   ],
   "note": "for a direct linear solver and mats meeting the conditions of C95; exact rational arithmetic"
  },
  {
   "property": "C101",
   "status": "proved",
   "theorems": [
    "C101_filled",
    "C101_given",
    "C101_generator",
    "C101_session",
    "C101_draws",
    "C101_empty",
    "C101_solve",
    "C101_floor",
    "C101_seed_refuted",
    "C101_network_refuted"
   ],
   "note": "only the state of the generator is followed, not the sharing of attributes (C55, C63); solve up to its interpolation; refuted: generator left alone, Stack(mat) = Stack(mat, Net(mat))"
  },
  {
   "property": "C102",
   "status": "proved",
   "theorems": [
    "C102_mat",
    "C102_wraps",
    "C102_builds",
    "C102_mesh",
    "C102_keywords",
    "C102_copies",
    "C102_rewrapped",
    "C102_again",
    "C102_marked",
    "C102_object",
    "C102_copy_refuted",
    "C102_stack_refuted"
   ],
   "note": "a copy has class DataFrame, as pandas does without _constructor; attributes are followed as values, sharing is C55/C63; refuted: copy of a mat, Stack(net)"
  },
  {
   "property": "C103",
   "status": "proved",
   "theorems": [
    "C103_floats",
    "C103_samples",
    "C103_between",
    "C103_increasing",
    "C103_step",
    "C103_booleans",
    "C103_outside",
    "C103_nearest_refuted"
   ],
   "note": "exact rational arithmetic; NaN or an infinity converted to an integer is left undefined; refuted: nearest integer"
  },
  {
   "property": "C104",
   "status": "proved",
   "theorems": [
    "C104_records",
    "C104_calls"
   ],
   "note": "exact rational arithmetic; contacts keep which of the two nodes has the lower number, as Stack and Mesh give it"
  },
  {
   "property": "C105",
   "status": "proved",
   "theorems": [
    "C105_mesh",
    "C105_solve",
    "C105_order_refuted",
    "C105_ties_refuted"
   ],
   "note": "exact rational arithmetic; flat fibers; in a periodic box directions are at most unit vectors and fibers at most half as long as the box; refuted: exchanged connected fibers, coinciding nodes"
  },
  {
   "property": "C106",
   "status": "proved",
   "theorems": [
    "C106_lid",
    "C106_heights",
    "C106_floor",
    "C106_places_refuted"
   ],
   "note": "overturned fibers: SpecOver; the piles of one mat are those of the other read from above (OverP)"
  },
  {
   "property": "C107",
   "status": "proved",
   "theorems": [
    "C107_records",
    "C107_calls",
    "C107_ends",
    "C107_faces",
    "C107_bounds_refuted"
   ],
   "note": "exact rational arithmetic; contact tolerance 0; C107_records assumes that the systems have one solution, C107_calls and C107_ends derive it for direct solvers (C88)"
  },
  {
   "property": "C108",
   "status": "proved",
   "theorems": [
    "C108_heights",
    "C108_mesh",
    "C108_solve",
    "C108_above_refuted"
   ],
   "note": "exact rational arithmetic; contact tolerance 0; heights by C97, rows of the networks pairwise by C98, runs by C107"
  },
  {
   "property": "C109",
   "status": "proved",
   "theorems": [
    "C109_parts",
    "C109_mats"
   ],
   "note": "exact rational arithmetic; contact tolerance 0; C109_parts from meshes (C107), C109_mats from mats (C108)"
  },
  {
   "property": "C110",
   "status": "proved",
   "theorems": [
    "C110_parts",
    "C110_mats",
    "C110_work",
    "C110_more"
   ],
   "note": "exact rational arithmetic; contact tolerance 0; C110_parts from meshes (C107), C110_mats from mats (C108), C110_work with C80 and C110_more with C30 and C94, both for finite moduli"
  },
  {
   "property": "C111",
   "status": "proved",
   "theorems": [
    "C111_nested",
    "C111_large",
    "C111_small",
    "C111_supports",
    "C111_mesh",
    "C111_lid",
    "C111_supports_refuted"
   ],
   "note": "exact rational arithmetic; C111_lid, C111_large, C111_small and C111_supports for networks of all pairs (C17) and horizontal fibers; C111_nested and C111_mesh for any network and any linear programming solver"
  }
 ]
}