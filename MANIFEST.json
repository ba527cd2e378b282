{
 "claims": [
  {
   "property": "C01",
   "status": "proved",
   "theorems": [
    "C01_new_unit",
    "C01_angles_unit",
    "C01_xyz_unit",
    "C01_xyz_rescale",
    "C01_xyz_zero",
    "C01_xyz_short_panics",
    "C01_xyz_long"
   ],
   "note": "Exact arithmetic with NaN; the panic statement holds for every number type."
  },
  {
   "property": "C02",
   "status": "proved",
   "theorems": [
    "C02_rotate_unit",
    "C02_rotations_unit"
   ],
   "note": ""
  },
  {
   "property": "C03",
   "status": "proved",
   "theorems": [
    "C03_rotate_solves_precession",
    "C03_precession_is_rotate"
   ],
   "note": ""
  },
  {
   "property": "C04",
   "status": "proved",
   "theorems": [
    "C04_rigid",
    "C04_group",
    "C04_inverse",
    "C04_rescale",
    "C04_period"
   ],
   "note": ""
  },
  {
   "property": "C05",
   "status": "proved",
   "theorems": [
    "C05_zero_field_nan",
    "C05_nan_is_forever",
    "C05_zero_field_nan_exact"
   ],
   "note": "Binary64, any maths library; also in exact arithmetic. Finding: a zero local field turns a spin into NaN instead of leaving it unchanged."
  },
  {
   "property": "C06",
   "status": "proved",
   "theorems": [
    "C06_gs",
    "C06_gs_degenerate"
   ],
   "note": ""
  },
  {
   "property": "C07",
   "status": "proved",
   "theorems": [
    "C07_rot_perp_angle",
    "C07_rot_perp_defined"
   ],
   "note": "The degenerate case (rotated direction with x = 0) is shown to give a NaN azimuth in exact arithmetic."
  },
  {
   "property": "C08",
   "status": "proved",
   "theorems": [
    "C08_roundtrip",
    "C08_plus_y_azimuth",
    "C08_minus_zero_azimuth"
   ],
   "note": "Finding: azimuth of +y with x = +0 is 3pi/2 in binary64."
  },
  {
   "property": "C09",
   "status": "proved",
   "theorems": [
    "C09_eq_iff",
    "C09_eq_sym",
    "C09_eq_refl",
    "C09_eq_refl_f64",
    "C09_eq_not_transitive"
   ],
   "note": ""
  },
  {
   "property": "C10",
   "status": "proved",
   "theorems": [
    "C10_new_shape",
    "C10_bad_noise_panics",
    "C10_bad_field_noise_panics",
    "C10_short_field_panics",
    "C10_short_hs_empty_subsystem",
    "C10_langevin_new"
   ],
   "note": ""
  },
  {
   "property": "C11",
   "status": "proved",
   "theorems": [
    "C11_fields_and_couplings"
   ],
   "note": ""
  },
  {
   "property": "C12",
   "status": "proved",
   "theorems": [
    "C12_spins_boltzmann",
    "C12_spins_finite_somewhere",
    "C12_step_defined",
    "C12_inverse_transform"
   ],
   "note": ""
  },
  {
   "property": "C13",
   "status": "proved",
   "theorems": [
    "C13_total_energy",
    "C13_total_energy2"
   ],
   "note": ""
  },
  {
   "property": "C14",
   "status": "proved",
   "theorems": [
    "C14_mc_total",
    "C14_mc_total_undriven",
    "C14_mc_system",
    "C14_mc_system_full"
   ],
   "note": ""
  },
  {
   "property": "C15",
   "status": "proved",
   "theorems": [
    "C15_system_energy",
    "C15_one_site_nan"
   ],
   "note": ""
  },
  {
   "property": "C16",
   "status": "proved",
   "theorems": [
    "C16_m",
    "C16_m_tot",
    "C16_m_bounded",
    "C16_m_panics"
   ],
   "note": ""
  },
  {
   "property": "C17",
   "status": "proved",
   "theorems": [
    "C17_bound"
   ],
   "note": ""
  },
  {
   "property": "C18",
   "status": "proved",
   "theorems": [
    "C18_drive_value",
    "C18_periodic",
    "C18_xyplane_unit",
    "C18_derivative",
    "C18_none_static"
   ],
   "note": ""
  },
  {
   "property": "C19",
   "status": "proved",
   "theorems": [
    "C19_energy",
    "C19_dynamics"
   ],
   "note": ""
  },
  {
   "property": "C20",
   "status": "proved",
   "theorems": [
    "C20_frame",
    "C20_frame_no_field",
    "C20_unit",
    "C20_unit_no_field",
    "C20_strong_field"
   ],
   "note": ""
  },
  {
   "property": "C21",
   "status": "proved",
   "theorems": [
    "C21_energy_conserved"
   ],
   "note": ""
  },
  {
   "property": "C22",
   "status": "proved",
   "theorems": [
    "C22_work"
   ],
   "note": ""
  },
  {
   "property": "C23",
   "status": "proved",
   "theorems": [
    "C23_reversible"
   ],
   "note": ""
  },
  {
   "property": "C24",
   "status": "proved",
   "theorems": [
    "C24_equation_of_motion"
   ],
   "note": ""
  },
  {
   "property": "C25",
   "status": "proved",
   "theorems": [
    "C25_locality"
   ],
   "note": ""
  },
  {
   "property": "C26",
   "status": "proved",
   "theorems": [
    "C26_free_spins"
   ],
   "note": ""
  },
  {
   "property": "C27",
   "status": "proved",
   "theorems": [
    "C27_odd_last_frozen",
    "C27_energy_conservation_refuted"
   ],
   "note": ""
  },
  {
   "property": "C28",
   "status": "proved",
   "theorems": [
    "C28_plain"
   ],
   "note": ""
  },
  {
   "property": "C29",
   "status": "proved",
   "theorems": [
    "C29_frame",
    "C29_frame_many",
    "C29_unit",
    "C29_langevin_frame",
    "C29_langevin_unit"
   ],
   "note": ""
  },
  {
   "property": "C30",
   "status": "proved",
   "theorems": [
    "C30_detailed_balance"
   ],
   "note": ""
  },
  {
   "property": "C31",
   "status": "proved",
   "theorems": [
    "C31_direction",
    "C31_area",
    "C31_reachable",
    "C31_south_pole_never"
   ],
   "note": ""
  },
  {
   "property": "C32",
   "status": "proved",
   "theorems": [
    "C32_step",
    "C32_reported_if_isotropic",
    "C32_reported_refuted"
   ],
   "note": ""
  },
  {
   "property": "C33",
   "status": "proved",
   "theorems": [
    "C33_step",
    "C33_reported",
    "C33_reported_if_isotropic",
    "C33_reported_refuted"
   ],
   "note": ""
  },
  {
   "property": "C34",
   "status": "proved",
   "theorems": [
    "C34_no_energy",
    "C34_bulk"
   ],
   "note": ""
  },
  {
   "property": "C35",
   "status": "proved",
   "theorems": [
    "C35_no_energy",
    "C35_antisymmetric"
   ],
   "note": ""
  },
  {
   "property": "C36",
   "status": "proved",
   "theorems": [
    "C36_rejects",
    "C36_frozen"
   ],
   "note": ""
  },
  {
   "property": "C37",
   "status": "proved",
   "theorems": [
    "C37_frame",
    "C37_unit",
    "C37_energy_conserved",
    "C37_strong_field",
    "C37_panic_noise",
    "C37_panic_short"
   ],
   "note": ""
  },
  {
   "property": "C38",
   "status": "proved",
   "theorems": [
    "C38_exact",
    "C38_never_raises",
    "C38_strictly_lowers",
    "C38_chain",
    "C38_long_step_refuted"
   ],
   "note": ""
  },
  {
   "property": "C39",
   "status": "proved",
   "theorems": [
    "C39_step",
    "C39_closing_bond_refuted",
    "C39_fields_refuted"
   ],
   "note": ""
  },
  {
   "property": "C40",
   "status": "proved",
   "theorems": [
    "C40_f64",
    "C40_exact",
    "C40_ends"
   ],
   "note": ""
  },
  {
   "property": "C41",
   "status": "proved",
   "theorems": [
    "C41_noisy",
    "C41_unreachable",
    "C41_search_is_bisect",
    "C41_bisect"
   ],
   "note": ""
  },
  {
   "property": "C42",
   "status": "proved",
   "theorems": [
    "C42_solves",
    "C42_close",
    "C42_loose",
    "C42_ground"
   ],
   "note": ""
  },
  {
   "property": "C43",
   "status": "proved",
   "theorems": [
    "C43_split",
    "C43_lines",
    "C43_zero",
    "C43_large_refuted"
   ],
   "note": ""
  },
  {
   "property": "C44",
   "status": "proved",
   "theorems": [
    "C44_profile",
    "C44_messages",
    "C44_energies",
    "C44_blocks",
    "C44_bad_index",
    "C44_f64_refuted"
   ],
   "note": ""
  },
  {
   "property": "C45",
   "status": "proved",
   "theorems": [
    "C45_one_snapshot",
    "C45_at_most_one",
    "C45_short_period",
    "C45_mode"
   ],
   "note": ""
  },
  {
   "property": "C46",
   "status": "proved",
   "theorems": [
    "C46_prefix",
    "C46_sent",
    "C46_lost"
   ],
   "note": ""
  },
  {
   "property": "C47",
   "status": "proved",
   "theorems": [
    "C47_total",
    "C47_capacity",
    "C47_means",
    "C47_order",
    "C47_directory",
    "C47_words"
   ],
   "note": ""
  },
  {
   "property": "C48",
   "status": "proved",
   "theorems": [
    "C48_means",
    "C48_no_zero_row",
    "C48_blank_line",
    "C48_default_logs",
    "C48_words"
   ],
   "note": ""
  },
  {
   "property": "C49",
   "status": "proved",
   "theorems": [
    "C49_steps",
    "C49_files",
    "C49_never_ends",
    "C49_extra_step"
   ],
   "note": ""
  },
  {
   "property": "C50",
   "status": "proved",
   "theorems": [
    "C50_periods",
    "C50_negative",
    "C50_short_period",
    "C50_binary64"
   ],
   "note": ""
  },
  {
   "property": "C51",
   "status": "proved",
   "theorems": [
    "C51_logs",
    "C51_wipe"
   ],
   "note": ""
  },
  {
   "property": "C52",
   "status": "proved",
   "theorems": [
    "C52_schedule",
    "C52_moment",
    "C52_modes",
    "C52_langevin"
   ],
   "note": ""
  },
  {
   "property": "C53",
   "status": "proved",
   "theorems": [
    "C53_round_trip",
    "C53_large_refused",
    "C53_reads",
    "C53_accepts",
    "C53_rejects"
   ],
   "note": ""
  },
  {
   "property": "C54",
   "status": "proved",
   "theorems": [
    "C54_created",
    "C54_unchanged"
   ],
   "note": ""
  },
  {
   "property": "C55",
   "status": "proved",
   "theorems": [
    "C55_reset",
    "C55_overwritten",
    "C55_runs"
   ],
   "note": ""
  },
  {
   "property": "C56",
   "status": "proved",
   "theorems": [
    "C56_modes",
    "C56_shared",
    "C56_offsets",
    "C56_hist"
   ],
   "note": ""
  },
  {
   "property": "C57",
   "status": "proved",
   "theorems": [
    "C57_late",
    "C57_early",
    "C57_file_conf",
    "C57_saved",
    "C57_langevin"
   ],
   "note": ""
  },
  {
   "property": "C58",
   "status": "proved",
   "theorems": [
    "C58_samples",
    "C58_cycles",
    "C58_zero",
    "C58_mean",
    "C58_order",
    "C58_nothing",
    "C58_estimate"
   ],
   "note": ""
  },
  {
   "property": "C59",
   "status": "proved",
   "theorems": [
    "C59_even",
    "C59_odd",
    "C59_sum",
    "C59_parseval"
   ],
   "note": ""
  },
  {
   "property": "C60",
   "status": "proved",
   "theorems": [
    "C60_queries",
    "C60_queries_exact",
    "C60_actions",
    "C60_programs",
    "C60_programs_exact"
   ],
   "note": ""
  },
  {
   "property": "C61",
   "status": "proved",
   "theorems": [
    "C61_boundary_term",
    "C61_langevin_boundary_term",
    "C61_torque_nonnegative"
   ],
   "note": ""
  },
  {
   "property": "C62",
   "status": "proved",
   "theorems": [
    "C62_new_xyz",
    "C62_rotate",
    "C62_rotations",
    "C62_chain"
   ],
   "note": ""
  },
  {
   "property": "C63",
   "status": "proved",
   "theorems": [
    "C63_completes"
   ],
   "note": ""
  },
  {
   "property": "C64",
   "status": "proved",
   "theorems": [
    "C64_log",
    "C64_log_watched",
    "C64_mc_line",
    "C64_hist_short",
    "C64_hist",
    "C64_langevin_log"
   ],
   "note": "Finding: the two energy columns of the Langevin log show the same subsystem energy; the subsystem energy is that of an open segment in the logs and of a closed ring in mc_live.dat."
  },
  {
   "property": "C65",
   "status": "proved",
   "theorems": [
    "C65_profile",
    "C65_profile_sum",
    "C65_ext"
   ],
   "note": "run_ext leaves out site 0 and never reports the last site of the chain."
  },
  {
   "property": "C66",
   "status": "proved",
   "theorems": [
    "C66_no_field",
    "C66_no_field_steps",
    "C66_conserved",
    "C66_response"
   ],
   "note": "Statements in exact arithmetic; strobing off for the run (with strobing the lines are thinned as in C53/C54)."
  },
  {
   "property": "C67",
   "status": "proved",
   "theorems": [
    "C67_estimate",
    "C67_observables"
   ],
   "note": "Exact arithmetic, for chains whose construction succeeds with finite values and draws in their ranges."
  },
  {
   "property": "C68",
   "status": "proved",
   "theorems": [
    "C68_worker",
    "C68_short",
    "C68_end",
    "C68_end_refuted",
    "C68_mode"
   ],
   "note": "Exact arithmetic. Ending exactly with the period is refuted for periods of 10 or more (C68_end_refuted, tau = 10.01)."
  },
  {
   "property": "C69",
   "status": "proved",
   "theorems": [
    "C69_hist",
    "C69_typical",
    "C69_nan",
    "C69_energy",
    "C69_magnus"
   ],
   "note": "C69_hist and C69_magnus hold in every number system, for runs that return; the meaning of the test and the conservation of energy in exact arithmetic; C69_nan in binary64."
  },
  {
   "property": "C70",
   "status": "proved",
   "theorems": [
    "C70_dynamics",
    "C70_single",
    "C70_periods",
    "C70_periods_refuted"
   ],
   "note": "C70_dynamics in every number system; C70_single, C70_periods in exact arithmetic. Lines at period ends refuted when the period is not a multiple of the step (C70_periods_refuted)."
  },
  {
   "property": "C71",
   "status": "proved",
   "theorems": [
    "C71_second",
    "C71_first",
    "C71_lab",
    "C71_fast_second",
    "C71_fast_lab",
    "C71_fast_first"
   ],
   "note": "Exact arithmetic. C71_second and C71_first for at least three sites and a nonzero period; the limits for every state, site and direction."
  },
  {
   "property": "C72",
   "status": "proved",
   "theorems": [
    "C72_order",
    "C72_step",
    "C72_completes",
    "C72_sharp"
   ],
   "note": "Exact arithmetic. Even number of sites (with an odd number the last spin does not move, C27). C72_order and C72_step speak of the runs that end in numbers; C72_completes gives a condition under which all runs with short steps do. Existence and uniqueness of X: C74."
  },
  {
   "property": "C73",
   "status": "proved",
   "theorems": [
    "C73_order",
    "C73_isolated",
    "C73_completes",
    "C73_drive_sharp",
    "C73_damped_sharp"
   ],
   "note": "Exact arithmetic, draws without effect (no damping, or all zero): the deterministic part of the step. Even number of sites. C73_order and C73_isolated speak of the runs that end in numbers; C73_completes gives a condition under which all runs with short steps do. Existence and uniqueness of X: C74."
  },
  {
   "property": "C74",
   "status": "proved",
   "theorems": [
    "C74_exists",
    "C74_unique",
    "C74_unit",
    "C74_bath_exists",
    "C74_bath_unique",
    "C74_limit",
    "C74_bath_limit",
    "C74_refine",
    "C74_bath_refine"
   ],
   "note": "Exact arithmetic. The statements on runs speak of the runs that end in numbers (a vanishing field gives NaN, C05) and of an even number of sites; the Langevin statements of noise-free draws."
  },
  {
   "property": "C75",
   "status": "proved",
   "theorems": [
    "C75_power",
    "C75_energy_order",
    "C75_frame",
    "C75_frame_energy",
    "C75_conserved",
    "C75_program",
    "C75_fit_chain"
   ],
   "note": "Exact arithmetic. C75_program and C75_energy_order need an even number of sites and runs that end in numbers; C75_fit_chain needs jvar = hvar = 0 (with noise the couplings differ in x and y and the frame is not exact)."
  },
  {
   "property": "C76",
   "status": "proved",
   "theorems": [
    "C76_lines",
    "C76_fit",
    "C76_high"
   ],
   "note": "C76_lines for every number system. C76_fit and C76_high are about exact arithmetic and chains with real contents made by SpinChain::new; the line of --adiabatic is covered by C76_lines with C67 and C68 for its values."
  },
  {
   "property": "C77",
   "status": "proved",
   "theorems": [
    "C77_plain",
    "C77_second",
    "C77_profile"
   ],
   "note": "Exact arithmetic; what write_in_bg gets onto the disk from the lines of the threads is the oracle r_file (C46)."
  },
  {
   "property": "C78",
   "status": "proved",
   "theorems": [
    "C78_stationary",
    "C78_observables",
    "C78_free"
   ],
   "note": "Exact arithmetic. Means over the draws are means over midpoint grids of [0,1], in the limit of fine grids; random numbers are independent and uniform by that definition (trusted: that rand provides such numbers)."
  },
  {
   "property": "C79",
   "status": "proved",
   "theorems": [
    "C79_rate",
    "C79_limit"
   ],
   "note": "Exact arithmetic. The rate (exp (-2 b E) / n)^n is pessimistic: it proves convergence and is not a practical estimate of the time needed."
  },
  {
   "property": "C80",
   "status": "proved",
   "theorems": [
    "C80_lasting",
    "C80_mean_square",
    "C80_seldom_off",
    "C80_reported"
   ],
   "note": "Exact arithmetic. With the pessimistic rate of C79 the bound is informative only where b E and n are small (C80_lasting_case: two weakly coupled spins, r = 1/100); the statement for general m gives convergence of the estimates."
  },
  {
   "property": "C81",
   "status": "proved",
   "theorems": [
    "C81_defined",
    "C81_spins",
    "C81_pairs",
    "C81_energy",
    "C81_target"
   ],
   "note": "Exact arithmetic. Means are over midpoint grids with an even number of points for each uniform draw, in the limit of fine grids. The normal draws of couplings and fields are arbitrary but fixed. The energy statements are for lambda = 1 and jvar = 0; SpinChainLangevin::new gives the same spins (C10_langevin_new)."
  },
  {
   "property": "C82",
   "status": "proved",
   "theorems": [
    "C82_grammar",
    "C82_one_reading",
    "C82_every",
    "C82_order",
    "C82_forms_long",
    "C82_forms_short",
    "C82_forms_both",
    "C82_forms_joined",
    "C82_negative_long",
    "C82_negative_short",
    "C82_hyphens_kept",
    "C82_hyphens_refused",
    "C82_list",
    "C82_comma",
    "C82_readme",
    "C82_modes"
   ],
   "note": "clap is not part of the repository: its rules are transcribed in Cli.v and belong to the trusted base. Numbers are read by arbitrary functions. The statements about spellings and refused values are for the first word of the line."
  },
  {
   "property": "C83",
   "status": "proved",
   "theorems": [
    "C83_function",
    "C83_falls",
    "C83_slope",
    "C83_one_temperature",
    "C83_search",
    "C83_near",
    "C83_good_draws",
    "C83_rising"
   ],
   "note": "Exact arithmetic. C83_rising is a finding about find_beta alone: its chain has couplings zero, which SpinChain::new makes only when the disorder drawn cancels (1, 1, lambda), and a field along z, which --adiabatic gives for hfield = (-1, 0, h + 2 pi / tau); --fit sets h = -2 pi / tau. C83_good_draws shows that the hypothesis on the estimates can be met by actual draws, for every eta."
  },
  {
   "property": "C84",
   "status": "proved",
   "theorems": [
    "C84_union",
    "C84_search"
   ],
   "note": "Exact arithmetic. The explicit bound of C84_search uses the pessimistic rate of C79 at b = 5 and is below 1 only for very weak energies; C84_union does not depend on it: it turns any bound for single estimates into one for the search. C84_search is for jvar = hvar = 0, where all chains of a search have the same Hamiltonian."
  },
  {
   "property": "C85",
   "status": "proved",
   "theorems": [
    "C85_steps",
    "C85_files",
    "C85_periods",
    "C85_short_period",
    "C85_binary64",
    "C85_langevin64",
    "C85_ext"
   ],
   "note": "C85_steps, C85_files, C85_periods, C85_short_period and C85_ext are in exact arithmetic; C85_binary64 and C85_langevin64 are binary64 with arbitrary libm functions."
  },
  {
   "property": "C86",
   "status": "proved",
   "theorems": [
    "C86_rotate",
    "C86_pi",
    "C86_steps",
    "C86_motion"
   ],
   "note": "Binary64 beside exact arithmetic; `accurate L` (sin and cos right to 2^-50, values in [-1,1]) is the only assumption on the maths library, and C86_library shows a library that meets it. C86_steps needs |h_z| >= 4, so that no field vanishes; C86_motion instead a lower bound on the fields along the motion. Not covered: the Monte-Carlo moves and the Langevin noise in binary64."
  },
  {
   "property": "C87",
   "status": "proved",
   "theorems": [
    "C87_unit_or_lost",
    "C87_spread",
    "C87_all_lost",
    "C87_step",
    "C87_run",
    "C87_density",
    "C87_printed",
    "C87_strong"
   ],
   "note": "Binary64; `accurate L` as in C86. The bound per step (2^-34) is that of the proof: it covers fields so small that their squares underflow. Odd rings are left out because the splitting itself does not keep their energy (C27). Monte-Carlo moves in binary64: C90. Not covered: Langevin noise in binary64."
  },
  {
   "property": "C88",
   "status": "proved",
   "theorems": [
    "C88_histogram",
    "C88_magnus",
    "C88_dynhist",
    "C88_trajectory",
    "C88_n_steps",
    "C88_langevin"
   ],
   "note": "Finding: -d and -s do not write the files that --help names for them. What the writer thread gets onto the disk is `r_file` of what it is given (C46)."
  },
  {
   "property": "C89",
   "status": "proved",
   "theorems": [
    "C89_average",
    "C89_langevin",
    "C89_two_point",
    "C89_two_langevin",
    "C89_two_panics",
    "C89_again",
    "C89_again_refuted"
   ],
   "note": "Exact arithmetic with NaN. Findings: the first line of default logs is left out of averages; -w panics after default runs with trel = 0; with a file prefix such as \"a\" a second -a averages the first avg.dat in. C89_two_point and C89_two_langevin ask for a dt of at least 1e-5, since the time 0 is found as |t| < 1e-5. Names of logs are as in C51."
  },
  {
   "property": "C90",
   "status": "proved",
   "theorems": [
    "C90_new",
    "C90_moves",
    "C90_run",
    "C90_temperature"
   ],
   "note": "Binary64. `proper L` asks of the maths library: `accurate` as in C86, NaN gives NaN, acos gives a number on [-1,1] and a number or NaN elsewhere, atan a number of at most 2 or NaN. Finding: beta = 0 and beta above about 709 give chains of NaN spins without a message; the test at spinchain.rs:1999 works at beta = 1000 because it changes beta after the chain was drawn. Not covered: how likely a chain of finite beta loses spins because of rounding in ln/acos, which depends on the library."
  },
  {
   "property": "C91",
   "status": "proved",
   "theorems": [
    "C91_run",
    "C91_moves",
    "C91_hot"
   ],
   "note": "Binary64; `proper L` as in C90. The bound 32 on the normal draws covers what any practical generator gives (a larger draw has probability below 1e-220), but is a hypothesis. Finding: --langevin with beta = 0 panics at the first step. Not covered: the energies and the logs of such runs."
  },
  {
   "property": "C92",
   "status": "proved",
   "theorems": [
    "C92_line",
    "C92_run",
    "C92_files"
   ],
   "note": "Binary64; `proper L`, `mild_conf` and `plain_draws` as in C90. C92_run and C92_files speak of runs that return; that they do is C63. Bounds are exact for binary64: no error term grows with the number of sites, because the bounds of the partial sums are themselves binary64 numbers. Not covered: the columns other than the energy of the chain once a spin is lost."
  },
  {
   "property": "C93",
   "status": "proved",
   "theorems": [
    "C93_default",
    "C93_extended",
    "C93_profiles",
    "C93_mean"
   ],
   "note": "About invocations that return; that they do is C45, C58 and C63. The warm-up of the other modes: C50 (`--tau`), C66 (`--response`), C85 (Langevin). Added after mutation B31 (fewer warm-up moves in the default and profile modes) was caught by proof scripts only. What a snapshot and the average of the snapshots are: C15, C45; the samples of a trajectory: C58."
  },
  {
   "property": "C94",
   "status": "proved",
   "theorems": [
    "C94_line",
    "C94_run",
    "C94_files"
   ],
   "note": "Binary64; `proper L`, `mild_conf`, `mild_bath` and the sizes of random numbers as in C90 and C91. C94_run and C94_files speak of runs that return. Nothing is said of the last column, the boundary term, nor of the columns after the energies once a spin of the subsystem is lost, nor of the mean over the chain once a spin outside is lost."
  },
  {
   "property": "C95",
   "status": "proved",
   "theorems": [
    "C95_line",
    "C95_thread",
    "C95_plain",
    "C95_second"
   ],
   "note": "Binary64; `proper L`, `mild_conf` and the sizes of random numbers as in C90. That the lines reaching the disk were sent is the hypothesis `sent_only` of the last clause; which of them do is left open, as in C46. Not covered: the columns after the first once a spin is lost; --monte-carlo-profile."
  },
  {
   "property": "C96",
   "status": "proved",
   "theorems": [
    "C96_column",
    "C96_nan",
    "C96_files"
   ],
   "note": "Binary64. The hypotheses of C96_files are those of C92_files, an empty directory as far as names of logs go, and an average that returns (it does unless t/dt asks for an impossible capacity, C47). The time column is not bounded: C92 says that times are numbers, not how large they are. Not covered: the columns after the chain's energy in a line with NaN. For logs of different configurations a later line may consist of numbers again, if only logs without NaN are long enough to have it; for the logs of one configuration C97 excludes it."
  },
  {
   "property": "C97",
   "status": "proved",
   "theorems": [
    "C97_default",
    "C97_response",
    "C97_langevin",
    "C97_same",
    "C97_averages"
   ],
   "note": "About invocations that return; that they do is C63. The first four theorems are for every arithmetic and need no axiom; C97_averages has the hypotheses of C96_files. Nothing is said of the time column of avg.dat: in binary64 the mean of equal times need not be that time."
  },
  {
   "property": "C98",
   "status": "proved",
   "theorems": [
    "C98_off_beat",
    "C98_zero",
    "C98_shipped"
   ],
   "note": "C89_two_panics is the same over exact numbers, for whole sessions of main; here the rounding of the times is covered, for one invocation of the default mode followed by -w (run_two_point). C98_off_beat is for every arithmetic and needs no axiom."
  },
  {
   "property": "C99",
   "status": "proved",
   "theorems": [
    "C99_files"
   ],
   "note": "Complements C98: with a line at time 0 after the first, -w works. The hypotheses are those of C96_files with fewer runs (the sum of the products of that many energies is still exact to the bound); the average itself need not be assumed to return. Not covered: the time column, and the columns after the energy in lines with NaN."
  },
  {
   "property": "C100",
   "status": "proved",
   "theorems": [
    "C100_averages"
   ],
   "note": "About invocations that return, as C96_files; the directory is to be tidy (no two entries for a name) and to have no file that looks like a log. Not covered: the time column, the boundary term of a line, the mean over the chain when the subsystem is smaller than the chain, and the columns after the energies in lines with NaN."
  }
 ]
}