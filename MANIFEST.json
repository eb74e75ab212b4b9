{
 "claims": [
  {
   "property": "C01",
   "status": "proved",
   "theorems": [
    "C01_set_frame",
    "C01_op_assign_frame",
    "C01_out_of_window_is_ub",
    "C01_history"
   ],
   "note": "Out-of-window claim for grids whose extents fit in int (larger ones wrap around). C01_history: any sequence of accesses."
  },
  {
   "property": "C02",
   "status": "proved",
   "theorems": [
    "C02_overlay_y",
    "C02_overlay_x",
    "C02_mismatch_fatal",
    "C02_overlay_y_length_unchecked"
   ],
   "note": "Arbitrary element type and addition; the second half of the strip is computed as rhs+this. The code's guard only compares the extent along the stitched border (C02_overlay_y_length_unchecked)."
  },
  {
   "property": "C03",
   "status": "partial",
   "theorems": [
    "C03_overlay_xy_square_partial",
    "C03_overlay_xy_refuted",
    "C03_nonsquare_never_right"
   ],
   "note": "Holds for square grids only; every non-square pair (overlay >= 1) either runs out of bounds or leaves the outermost corner cell untouched."
  },
  {
   "property": "C04",
   "status": "proved",
   "theorems": [
    "C04_reset_clears_everything",
    "C04_assign_interior_only",
    "C04_overlay_set_ghosts_only",
    "C04_op_all_interior_only",
    "C04_copy_whole_storage"
   ],
   "note": ""
  },
  {
   "property": "C05",
   "status": "proved",
   "theorems": [
    "C05_tiling",
    "C05_borders"
   ],
   "note": "Any cell and domain counts without 64-bit overflow (hypothesis sane)."
  },
  {
   "property": "C06",
   "status": "proved",
   "theorems": [
    "C06_equal_sizes_iff_divisible",
    "C06_stitching_fatal_iff",
    "C06_accepted_config_refuted"
   ],
   "note": "Equal shapes exactly when the counts divide; the configuration check accepts non-dividing counts (C06_accepted_config_refuted)."
  },
  {
   "property": "C07",
   "status": "proved",
   "theorems": [
    "C07_runaway_reaches_owner",
    "C07_nondivisible_refuted",
    "C07_empty_domain_ub"
   ],
   "note": "For domain counts dividing the cell counts; refuted otherwise. Serial build (no MPI)."
  },
  {
   "property": "C08",
   "status": "proved",
   "theorems": [
    "C08_collector_conserves",
    "C08_any_order",
    "C08_many_steps"
   ],
   "note": "Serial semantics of the non-MPI collector, any visiting order of the domains; the unsynchronised push_back of the OpenMP build is not modelled."
  },
  {
   "property": "C09",
   "status": "partial",
   "theorems": [
    "C09_ids_distinct_refuted",
    "C09_specie_beam_clash_refuted",
    "C09_pigeonhole_refuted",
    "C09_last_char_partial",
    "C09_duplicate_ids_duplicate_particles_refuted"
   ],
   "note": "False: the 16-bit hash collides. Holds for names that differ in the last character only."
  },
  {
   "property": "C10",
   "status": "proved",
   "theorems": [
    "C10_disjoint_footprints",
    "C10_colours_cover",
    "C10_one_colour",
    "C10_whole_pass"
   ],
   "note": "Interleavings of single assignment statements of the iterations of a colour, arbitrary element type and addition; the barrier at the end of each parallel loop is part of the model."
  },
  {
   "property": "C11",
   "status": "proved",
   "theorems": [
    "C11_row_of_domains",
    "C11_column_of_domains",
    "C11_narrow_refuted"
   ],
   "note": "Rows and columns of domains; below twice the overlay it fails (C11_narrow_refuted)."
  },
  {
   "property": "C12",
   "status": "partial",
   "theorems": [
    "C12_interior_after_pass_partial",
    "C12_all_delivered_partial",
    "C12_antidiagonal_refuted"
   ],
   "note": "False in general: anti-diagonal corner deposits are lost. The partial theorems give the exact result of a pass for square domains over any commutative monoid, any call order."
  },
  {
   "property": "C61",
   "status": "proved",
   "theorems": [
    "C61_halo_refresh",
    "C61_overlay_set_establishes"
   ],
   "note": "Square domains; addition with the laws of a commutative monoid (only x+0=x and commutation are exercised on the copied cells)."
  },
  {
   "property": "C13",
   "status": "proved",
   "theorems": [
    "C13_shared_columns",
    "C13_ranks_agree",
    "C13_others_unchanged",
    "C13_takes_place"
   ],
   "note": "Under any schedule and any buffering that lets the exchange complete; grids at least four columns wide (eight if one domain borders on both neighbours); all ranks have grids of one size."
  },
  {
   "property": "C14",
   "status": "partial",
   "theorems": [
    "C14_buffered_partial",
    "C14_rendezvous_refuted",
    "C14_no_buffer_refuted"
   ],
   "note": "Completes under every schedule if the library stores all messages of a pair of ranks; with less room the ranks deadlock (without buffering always, from 2 ranks on). MPI buffering is modelled as a number of messages per ordered pair of ranks."
  },
  {
   "property": "C15",
   "status": "partial",
   "theorems": [
    "C15_disjoint",
    "C15_cover_partial",
    "C15_remainder_refuted",
    "C15_no_domain_refuted"
   ],
   "note": "Complete exactly when the number of ranks divides the number of cells; otherwise the last cells belong to nobody."
  },
  {
   "property": "C16",
   "status": "proved",
   "theorems": [
    "C16_frame_written",
    "C16_one_owner",
    "C16_tiles_disjoint",
    "C16_inside_file"
   ],
   "note": "For domains at most 32767 cells wide; the written-frame theorem assumes no border between domains lies on the first or last row of the probe (see C17, C21); tile disjointness does not need it."
  },
  {
   "property": "C17",
   "status": "partial",
   "theorems": [
    "C17_written_partial",
    "C17_border_ub",
    "C17_every_probe_refuted"
   ],
   "note": "False: a probe whose first or last row lies on a border between domains is always undefined behaviour; all others are written."
  },
  {
   "property": "C18",
   "status": "proved",
   "theorems": [
    "C18_frames",
    "C18_scheduled_steps"
   ],
   "note": "Steps counted exactly; schedule 1..65535."
  },
  {
   "property": "C19",
   "status": "partial",
   "theorems": [
    "C19_exact_partial",
    "C19_drift_partial",
    "C19_step_number_refuted",
    "C19_lost_frame_refuted",
    "C19_frame_overwritten_refuted"
   ],
   "note": "False in double precision, e.g. for the time step of the sample configuration. Exact if all multiples of the step are representable; otherwise off by at most one in the first 60 million steps (relative error 2^-53 per operation, no underflow)."
  },
  {
   "property": "C20",
   "status": "partial",
   "theorems": [
    "C20_schedules_agree_iff",
    "C20_short_schedule_partial",
    "C20_long_schedule_refuted"
   ],
   "note": "Equal exactly below 65536; every longer schedule fails within its first period."
  },
  {
   "property": "C21",
   "status": "partial",
   "theorems": [
    "C21_position_partial",
    "C21_position_refuted"
   ],
   "note": "Holds if no domain is wider than 32767 cells; otherwise the position wraps to a negative value."
  },
  {
   "property": "C22",
   "status": "partial",
   "theorems": [
    "C22_no_pause_partial",
    "C22_output_after_pause_refuted",
    "C22_pause_resume_refuted",
    "C22_terminate_while_paused_refuted",
    "C22_terminate_at_end_refuted"
   ],
   "note": "False: after a pause the writers keep the released file, so the next due output is undefined; terminating a paused (or just finished) program releases the file twice. Without pauses the file is used correctly. Handlers run atomically in the model."
  },
  {
   "property": "C23",
   "status": "partial",
   "theorems": [
    "C23_paused",
    "C23_idempotent",
    "C23_no_effect",
    "C23_resume",
    "C23_lost_resume_refuted"
   ],
   "note": "No new step while paused (one if the signal arrives between the check and the start of a step). A resume request may be lost (C23_lost_resume_refuted)."
  },
  {
   "property": "C24",
   "status": "partial",
   "theorems": [
    "C24_fields_lossless",
    "C24_pieces_partial",
    "C24_join_iff",
    "C24_lossless_refuted"
   ],
   "note": "Empty fields are dropped, so it is lossless exactly for strings without empty fields."
  },
  {
   "property": "C25",
   "status": "proved",
   "theorems": [
    "C25_make_directory",
    "C25_trailing_slash_refuted"
   ],
   "note": "Paths without empty segments (apart from the leading one of an absolute path), no '.' or '..', no links; a trailing slash makes the call report failure although the directory is created."
  },
  {
   "property": "C26",
   "status": "partial",
   "theorems": [
    "C26_integral_argument",
    "C26_least_multiple",
    "C26_argument_rounded",
    "C26_no_multiple_refuted"
   ],
   "note": "Least multiple not smaller than n for a whole divisor (0 if it does not fit in 32 bits). The divisor the code passes may be off by rounding, and then the result is 0."
  },
  {
   "property": "C27",
   "status": "proved",
   "theorems": [
    "C27_option_value",
    "C27_option_exists",
    "C27_missing_value_refuted",
    "C27_config_file",
    "C27_help_version"
   ],
   "note": "The caller assigns the null pointer of a missing value to a std::string (C27_missing_value_refuted)."
  },
  {
   "property": "C28",
   "status": "partial",
   "theorems": [
    "C28_budget_partial",
    "C28_budget_rounded",
    "C28_strict_miss_refuted"
   ],
   "note": "Exact arithmetic: as stated. With rounding the budget is still never exceeded, but the sum may be short by as much as the number of species and beams (C28_strict_miss_refuted: one species gets 999999 of 1000000)."
  },
  {
   "property": "C59",
   "status": "proved",
   "theorems": [
    "C59_main_loop",
    "C59_step_count",
    "C59_not_earlier",
    "C59_rounded",
    "C59_double_refuted"
   ],
   "note": "Exact time arithmetic as stated; with rounded time the count is off by at most one (C59_rounded), and it does happen (C59_double_refuted)."
  },
  {
   "property": "C60",
   "status": "partial",
   "theorems": [
    "C60_rec_partial",
    "C60_list",
    "C60_accepted_inside",
    "C60_shapes_refuted",
    "C60_negative_refuted",
    "C60_zero_schedule_refuted"
   ],
   "note": "Only rectangles can be read; column, row and dot probes write into an empty vector. Negative coordinates are undefined instead of rejected and a period of 0 is accepted."
  },
  {
   "property": "C29",
   "status": "proved",
   "theorems": [
    "C29_density",
    "C29_linear_profile"
   ],
   "note": ""
  },
  {
   "property": "C30",
   "status": "partial",
   "theorems": [
    "C30_terminates",
    "C30_reflect_partial",
    "C30_untouched",
    "C30_zero_refuted"
   ],
   "note": "A particle exactly at local coordinate 0 is not reflected because isnormal(0) is false (C30_zero_refuted); all other positions are as stated."
  },
  {
   "property": "C31",
   "status": "proved",
   "theorems": [
    "C31_beam_reflect"
   ],
   "note": ""
  },
  {
   "property": "C32",
   "status": "proved",
   "theorems": [
    "C32_back_to_plane",
    "C32_energy_with_reflection"
   ],
   "note": ""
  },
  {
   "property": "C33",
   "status": "partial",
   "theorems": [
    "C33_rotation_partial",
    "C33_rotation_refuted",
    "C33_crossing_refuted"
   ],
   "note": "The rotation has the wrong sense: the radial velocity becomes (|r|*v_r - phi*v_phi)/R. It agrees with the right one only without azimuthal displacement or azimuthal velocity."
  },
  {
   "property": "C34",
   "status": "proved",
   "theorems": [
    "C34_weighting"
   ],
   "note": "Exactly at one cell from the axis the volume of the axis cell is used; the sum is kept all the same."
  },
  {
   "property": "C35",
   "status": "partial",
   "theorems": [
    "C35_same_cell_partial",
    "C35_node_volume_refuted",
    "C35_integral_refuted"
   ],
   "note": "The volume of a node depends on which of the two cells beside it the particle is in."
  },
  {
   "property": "C57",
   "status": "partial",
   "theorems": [
    "C57_windows_disjoint",
    "C57_only_in_window",
    "C57_exact_partial",
    "C57_missed_refuted"
   ],
   "note": "Nothing is injected outside the windows. All windows are served if the pause between bunches is longer than a step; without a pause whole steps of a window are skipped (C57_missed_refuted)."
  },
  {
   "property": "C58",
   "status": "partial",
   "theorems": [
    "C58_stuck",
    "C58_refuted",
    "C58_first_bunch_partial"
   ],
   "note": "A domain away from the axis injects the first bunch only, because the bunch counter is increased only in the domain at the origin."
  },
  {
   "property": "C62",
   "status": "partial",
   "theorems": [
    "C62_bunch_total_partial",
    "C62_bunch_total_refuted",
    "C62_no_particles_refuted"
   ],
   "note": "The number per step is rounded up, so a bunch gets up to one macro-particle per step too many; exact only if the number per step is whole."
  },
  {
   "property": "C63",
   "status": "proved",
   "theorems": [
    "C63_shares"
   ],
   "note": ""
  },
  {
   "property": "C64",
   "status": "partial",
   "theorems": [
    "C64_cell_r_partial",
    "C64_cell_z_refuted"
   ],
   "note": "The radial cell number is right; the longitudinal one is computed from the radius."
  },
  {
   "property": "C36",
   "status": "proved",
   "theorems": [
    "C36_divergence_step",
    "C36_for_ever",
    "C36_wall_row_refuted"
   ],
   "note": "Stated for the cells all of whose faces are updated, with the wall row of the radial field equal to zero there, as it is from the start (C36_wall_row_refuted shows the condition is needed)."
  },
  {
   "property": "C37",
   "status": "proved",
   "theorems": [
    "C37_step",
    "C37_for_ever"
   ],
   "note": ""
  },
  {
   "property": "C38",
   "status": "proved",
   "theorems": [
    "C38_run_defined",
    "C38_spread_e",
    "C38_spread_h",
    "C38_speed",
    "C38_empty"
   ],
   "note": ""
  },
  {
   "property": "C39",
   "status": "proved",
   "theorems": [
    "C39_multiplier",
    "C39_is_multiplier",
    "C39_layers"
   ],
   "note": "Real arithmetic."
  },
  {
   "property": "C65",
   "status": "proved",
   "theorems": [
    "C65_step",
    "C65_for_ever",
    "C65_divergence",
    "C65_walls"
   ],
   "note": "Exact real arithmetic (in floating point the stencils of both programs combine the same numbers in the same order, except that 0 is added to ghost cells). No external fields; the current is taken as given."
  },
  {
   "property": "C40",
   "status": "partial",
   "theorems": [
    "C40_selected_partial",
    "C40_electric_never",
    "C40_electric_refuted",
    "C40_magnetic_refuted",
    "C40_unknown_partial",
    "C40_unknown_electric_refuted",
    "C40_no_parameter_refuted"
   ],
   "note": "Only the magnetic profiles none and const_z do what their names say. The electric profile is never applied whatever its name, magnetic const_r and const_phi apply nothing."
  },
  {
   "property": "C41",
   "status": "partial",
   "theorems": [
    "C41_defined",
    "C41_field_h",
    "C41_field_e_partial",
    "C41_field_e_refuted"
   ],
   "note": "Holds for all components but E_z, which receives the last contribution of E_phi. Positions at least half a cell away from the axis."
  },
  {
   "property": "C66",
   "status": "partial",
   "theorems": [
    "C66_uniform_partial",
    "C66_uniform_refuted",
    "C66_axis_refuted"
   ],
   "note": "Never exact: the interpolated value is short by a share of about dr/(2r) (bounds proved), half a cell from the axis by one half."
  },
  {
   "property": "C42",
   "status": "partial",
   "theorems": [
    "C42_radial_longitudinal_partial",
    "C42_azimuthal_partial",
    "C42_azimuthal_refuted"
   ],
   "note": "Radial and longitudinal totals hold; the azimuthal total is wrong for a particle that moves along z (line 104 uses W_z1 where W_z2 is meant)."
  },
  {
   "property": "C43",
   "status": "proved",
   "theorems": [
    "C43_relay_in_both_cells"
   ],
   "note": ""
  },
  {
   "property": "C44",
   "status": "partial",
   "theorems": [
    "C44_radial_jump_reported",
    "C44_deposits_partial",
    "C44_longitudinal_jump_refuted",
    "C44_corner_refuted"
   ],
   "note": "Only radial jumps are reported; longitudinal jumps and paths through a corner of the grid deposit nothing, silently."
  },
  {
   "property": "C67",
   "status": "partial",
   "theorems": [
    "C67_oblique_partial",
    "C67_straight_partial",
    "C67_border_start_refuted",
    "C67_radial_crossing_refuted",
    "C67_radial_crossing_partial"
   ],
   "note": "Holds for oblique moves that do not pass a corner or start on the lower border of a cell and leave it inwards, and for straight moves along z or inside one cell. Straight radial moves across a border: holds at all nodes but the two of the new cell, everywhere if the cells have size one; fails otherwise (r0*r0/i*dr). Fails for and inward moves that start on a border. Real arithmetic."
  },
  {
   "property": "C68",
   "status": "partial",
   "theorems": [
    "C68_one_row_partial",
    "C68_refuted",
    "C68_middle",
    "C68_split"
   ],
   "note": "Within one row of cells; across rows the node volumes used contradict each other, for every cell size. C68_middle and C68_split: the current is taken at the middle of the path and divided between the columns of nodes by the distance from them."
  },
  {
   "property": "C69",
   "status": "partial",
   "theorems": [
    "C69_zigzag_partial",
    "C69_vb_partial",
    "C69_border_refuted",
    "C69_erased_refuted"
   ],
   "note": "Holds for ZigZag. Villasenor-Buneman erases the azimuthal current in the ghost cells always, and the radial current in the cell of every particle that moves straight along z."
  },
  {
   "property": "C70",
   "status": "partial",
   "theorems": [
    "C70_unit_cells_partial",
    "C70_refuted"
   ],
   "note": "The weights are distances, not divided by the cell size: right exactly for dz = 1."
  },
  {
   "property": "C45",
   "status": "proved",
   "theorems": [
    "C45_classic",
    "C45_relativistic"
   ],
   "note": "Real arithmetic."
  },
  {
   "property": "C46",
   "status": "proved",
   "theorems": [
    "C46_boris",
    "C46_vay",
    "C46_hc",
    "C46_for_ever",
    "C46_classic_refuted"
   ],
   "note": "Real arithmetic; see C76 for rounding. C46_for_ever: the fatal exit is never reached. The classic pusher, not claimed, has no bound."
  },
  {
   "property": "C47",
   "status": "partial",
   "theorems": [
    "C47_special_partial",
    "C47_longitudinal_refuted"
   ],
   "note": "Two misprints (b[2] for b[1] in line 97, b2[0] for b2[2] in line 94). In a longitudinal field every step multiplies the transverse momentum by 1+t^2."
  },
  {
   "property": "C48",
   "status": "proved",
   "theorems": [
    "C48_inverse",
    "C48_inverse_momentum",
    "C48_energy",
    "C48_slow_refuted"
   ],
   "note": "Below the limit, not claimed, the two energies always differ."
  },
  {
   "property": "C71",
   "status": "proved",
   "theorems": [
    "C71_classic",
    "C71_relativistic"
   ],
   "note": "Real arithmetic."
  },
  {
   "property": "C72",
   "status": "proved",
   "theorems": [
    "C72_electric"
   ],
   "note": "Real arithmetic."
  },
  {
   "property": "C73",
   "status": "partial",
   "theorems": [
    "C73_unit_light_speed_partial",
    "C73_refuted"
   ],
   "note": "Line 81 adds 1 and u^2 without dividing by c^2: for motion across the field the speed is kept exactly if c = 1 and always changes otherwise."
  },
  {
   "property": "C74",
   "status": "partial",
   "theorems": [
    "C74_fast_partial",
    "C74_slow_refuted"
   ],
   "note": "use_rel has no value for every particle slower than REL_LIMIT."
  },
  {
   "property": "C75",
   "status": "proved",
   "theorems": [
    "C75_mass_shell",
    "C75_massless_reported",
    "C75_superluminal_reported"
   ],
   "note": ""
  },
  {
   "property": "C76",
   "status": "partial",
   "theorems": [
    "C76_moderate_partial",
    "C76_extreme_refuted"
   ],
   "note": "Holds up to Lorentz factors of 1e7; binary64 witness with a correctly rounded pow at 1e8."
  },
  {
   "property": "C49",
   "status": "proved",
   "theorems": [
    "C49_times",
    "C49_inside",
    "C49_alone"
   ],
   "note": "Every number of particles from 2: each takes part once; with an odd number the first three take part twice, in pairs of half weight."
  },
  {
   "property": "C50",
   "status": "partial",
   "theorems": [
    "C50_inside",
    "C50_times_partial",
    "C50_multiple",
    "C50_refuted",
    "C50_refuted_always",
    "C50_inside_2b"
   ],
   "note": "Indices stay inside; the coverage is right if the longer list is a multiple of the shorter one (or by the remainder condition of C50_times_partial); refuted for 7 ions and 3 electrons."
  },
  {
   "property": "C51",
   "status": "partial",
   "theorems": [
    "C51_partial",
    "C51_refuted_row",
    "C51_refuted",
    "C51_cold_refuted"
   ],
   "note": "One empty or cold cell ends the collisions of the rest of the row / area."
  },
  {
   "property": "C52",
   "status": "proved",
   "theorems": [
    "C52_correct",
    "C52_cold_refuted"
   ],
   "note": "Real arithmetic, cells whose velocities differ after the scattering; the cold cell divides 0 by 0."
  },
  {
   "property": "C53",
   "status": "partial",
   "theorems": [
    "C53_length",
    "C53_partial",
    "C53_paper",
    "C53_refuted",
    "C53_refuted_minus_z",
    "C53_theta2"
   ],
   "note": "A rotation in the special cases of C53_partial; the formula of the paper is one, that of the code is not."
  },
  {
   "property": "C54",
   "status": "partial",
   "theorems": [
    "C54_partial",
    "C54_head_on_refuted",
    "C54_along_z_refuted"
   ],
   "note": "Full conservation through both boosts whenever velocities are numbers afterwards; pairs with opposite momenta or relative motion along z get NaN."
  },
  {
   "property": "C55",
   "status": "partial",
   "theorems": [
    "C80_partial",
    "C55_sk98_refuted",
    "C55_p12_refuted"
   ],
   "note": "Refuted for all velocities: the difference of the speeds in the center-of-mass frame is used as the relative speed, it is 0 for equal masses."
  },
  {
   "property": "C56",
   "status": "partial",
   "theorems": [
    "C56_partial",
    "C56_refuted"
   ],
   "note": "True unless the heavier macro-particle comes first and the draw lies between the two weights; then the second particle always gets the velocity zero (C56_refuted, for all parameters)."
  },
  {
   "property": "C77",
   "status": "partial",
   "theorems": [
    "C77_partial",
    "C77_ratio",
    "C77_refuted"
   ],
   "note": "Right for domains at the axis. The macro argument is not in parentheses, so the volume of every other domain is too small by pi*dz*dr^2*shift (C77_ratio) and the density too large."
  },
  {
   "property": "C78",
   "status": "partial",
   "theorems": [
    "C78_momentum",
    "C78_refuted"
   ],
   "note": "C78_momentum gives the exact change: the second particle gets the change with the wrong sign, so the momentum changes by twice the transferred one unless nothing is transferred."
  },
  {
   "property": "C79",
   "status": "partial",
   "theorems": [
    "C79_like_refuted"
   ],
   "note": "False for all equal masses and weights: the relative velocity never changes, because both particles get the same change."
  },
  {
   "property": "C80",
   "status": "partial",
   "theorems": [
    "C80_partial",
    "C80_refuted"
   ],
   "note": "Holds when the lighter particle is the macro-particle of smaller or equal weight (pairs not head-on, not along z). With the weights the other way round nothing is ever scattered."
  },
  {
   "property": "C81",
   "status": "partial",
   "theorems": [
    "C81_conserved",
    "C81_partial",
    "C81_head_on_refuted"
   ],
   "note": "Conservation proved for every pair with numbers as result."
  },
  {
   "property": "C82",
   "status": "partial",
   "theorems": [
    "C82_partial",
    "C82_refuted",
    "C82_zero_refuted"
   ],
   "note": "Holds from s = 0.1 on, and below it for draws that are not too small. Below, small draws give a cosine less than -1 (then NaN), a zero draw the logarithm of zero."
  },
  {
   "property": "C83",
   "status": "partial",
   "theorems": [
    "C83_change",
    "C83_equal_partial",
    "C83_refuted"
   ],
   "note": "Holds for equal weights. C83_change gives the exact change for different weights, C83_refuted an instance of the code."
  },
  {
   "property": "C84",
   "status": "proved",
   "theorems": [
    "C84_in_area"
   ],
   "note": ""
  },
  {
   "property": "C85",
   "status": "partial",
   "theorems": [
    "C85_at_walls_partial",
    "C85_inner_refuted",
    "C85_within_overlay"
   ],
   "note": "Holds for domains at the outer walls; elsewhere the half-cell shift moves particles one cell beyond the domain, exactly for the draws named."
  },
  {
   "property": "C86",
   "status": "proved",
   "theorems": [
    "C86_defined",
    "C86_stratified",
    "C86_distinct",
    "C86_flat",
    "C86_limit_refuted"
   ],
   "note": ""
  },
  {
   "property": "C87",
   "status": "partial",
   "theorems": [
    "C87_placed_partial",
    "C87_amount_refuted",
    "C87_square_refuted"
   ],
   "note": "Ends and stays inside; always places too few."
  },
  {
   "property": "C88",
   "status": "partial",
   "theorems": [
    "C88_even",
    "C88_none_refuted",
    "C88_narrow_refuted"
   ],
   "note": "Even filling proved; the remainder of the division is not placed, no cells is undefined behaviour."
  },
  {
   "property": "C89",
   "status": "partial",
   "theorems": [
    "C89_serial",
    "C89_cuts",
    "C89_mpi_refuted",
    "C89_mpi_negative_refuted"
   ],
   "note": "Proved without MPI; with MPI the slope is multiplied by the number of processes."
  },
  {
   "property": "C90",
   "status": "proved",
   "theorems": [
    "C90_shares"
   ],
   "note": ""
  },
  {
   "property": "C91",
   "status": "partial",
   "theorems": [
    "C91_eigen_partial",
    "C91_rectangular_partial",
    "C91_thermal_partial",
    "C91_thermal_refuted"
   ],
   "note": "Exact bound for the eigen distribution."
  },
  {
   "property": "C92",
   "status": "partial",
   "theorems": [
    "C92_classical_partial",
    "C92_relativistic_refuted",
    "C92_monotone_refuted"
   ],
   "note": "Right below the relativistic limit. Above it the momentum is taken as energy over c, so the kinetic energy is always too small, and the velocity jumps down at the limit."
  },
  {
   "property": "C93",
   "status": "partial",
   "theorems": [
    "C93_particle_partial",
    "C93_box_partial",
    "C93_zero_refuted",
    "C93_long_refuted"
   ],
   "note": "Proved for moves shorter than a domain that do not meet a coordinate of exactly zero; both conditions are needed."
  },
  {
   "property": "C94",
   "status": "proved",
   "theorems": [
    "C94_mirror",
    "C94_free_flight",
    "C94_unreflected_refuted"
   ],
   "note": "Holds for reflected particles; without a reflection the radial velocity gets the wrong sign of the azimuthal part."
  },
  {
   "property": "C95",
   "status": "partial",
   "theorems": [
    "C95_density",
    "C95_momentum_partial",
    "C95_range",
    "C95_fast_refuted",
    "C95_order_refuted"
   ],
   "note": "Exact below REL_LIMIT; the Lorentz factor is applied on the wrong side of the limit."
  },
  {
   "property": "C96",
   "status": "partial",
   "theorems": [
    "C96_fresh_partial",
    "C96_never_positive_refuted",
    "C96_memory_refuted"
   ],
   "note": "Holds right after the energy diagnostics; otherwise the map of absolute momenta is stale or uninitialised."
  },
  {
   "property": "C97",
   "status": "partial",
   "theorems": [
    "C97_uniform_partial",
    "C97_cap_refuted",
    "C97_mean_refuted"
   ],
   "note": "Formula for particles of one speed; in general the energy of the mean momentum is shown, and never more than (sqrt 2 - 1) m c^2."
  },
  {
   "property": "C98",
   "status": "partial",
   "theorems": [
    "C98_domains",
    "C98_domains_complete",
    "C98_clean",
    "C98_courant_partial",
    "C98_no_domains_refuted",
    "C98_not_stopped_refuted",
    "C98_courant_refuted"
   ],
   "note": "Cell crossing and plasma oscillation hold when no error is printed; errors do not stop the program, the stability limit may be exceeded by sqrt 2, zero domains are accepted."
  },
  {
   "property": "C99",
   "status": "partial",
   "theorems": [
    "C99_quasineutral_partial",
    "C99_messages",
    "C99_found",
    "C99_swapped_refuted",
    "C99_ion_name_refuted",
    "C99_last_electron_refuted"
   ],
   "note": "The temperatures are exchanged; equal for equal densities or temperatures."
  },
  {
   "property": "C100",
   "status": "partial",
   "theorems": [
    "C100_whole_partial",
    "C100_error",
    "C100_fraction_refuted"
   ],
   "note": "Whole numbers only."
  },
  {
   "property": "C101",
   "status": "partial",
   "theorems": [
    "C101_conserves_partial",
    "C101_takes_place",
    "C101_corner_refuted"
   ],
   "note": "Holds when no particle moves further than into the next slab and none crosses a slab border outside the outer wall; otherwise the receiving process indexes its domains out of range (proved for the upward direction)."
  },
  {
   "property": "C102",
   "status": "partial",
   "theorems": [
    "C102_deadlock_free_iff",
    "C102_both_full_refuted",
    "C102_particles_partial",
    "C102_rendezvous_refuted"
   ],
   "note": "Exact characterisation: a standstill happens iff two neighbours both have more messages for each other than the library stores; without buffering every run of two or more processes hangs."
  },
  {
   "property": "C103",
   "status": "proved",
   "theorems": [
    "C103_volume",
    "C103_proportional",
    "C103_random",
    "C103_jump"
   ],
   "note": "For plasmas of more than one row of cells all placed particles are beyond the first half cell; there the volume attributed to a particle would jump by the factor 4 (C103_jump)."
  },
  {
   "property": "C104",
   "status": "proved",
   "theorems": [
    "C104_allotted",
    "C104_same_layers"
   ],
   "note": "Real arithmetic, equal steps in all domains."
  },
  {
   "property": "C105",
   "status": "partial",
   "theorems": [
    "C105_thickness_partial",
    "C105_one_cell_refuted",
    "C105_lost_layer_refuted",
    "C105_lost_layer_general_refuted"
   ],
   "note": "Right for the left wall; at the right and outer wall the layer is one cell thinner than configured, and it vanishes when the quotient of the sizes is rounded below the number of cells (binary64 witness with the default length and 216 cells)."
  },
  {
   "property": "C106",
   "status": "partial",
   "theorems": [
    "C106_uniform",
    "C106_linear_partial",
    "C106_division_refuted"
   ],
   "note": "Exact for uniform densities; for a linear profile up to half the density difference within a domain times one cell, which depends on the number of domains."
  },
  {
   "property": "C107",
   "status": "partial",
   "theorems": [
    "C107_uniform_partial",
    "C107_weights",
    "C107_steeper",
    "C107_profile_iff",
    "C107_negative_refuted"
   ],
   "note": "False: the profile is as many times steeper as there are processes; right iff one process, uniform density or at z = 0. Decreasing densities give negative weights."
  },
  {
   "property": "C108",
   "status": "partial",
   "theorems": [
    "C108_magnetic",
    "C108_electric_partial",
    "C108_azimuthal_refuted"
   ],
   "note": "All components of H, E_r, and E_z where E_phi vanishes; a contribution of E_phi is added to E_z by the code."
  },
  {
   "property": "C109",
   "status": "partial",
   "theorems": [
    "C109_magnetic",
    "C109_electric",
    "C109_refuted"
   ],
   "note": "All components but E_z, which may be exceeded by the maximum of E_phi (C109_electric; the misdirected contribution is C41_field_e_refuted)."
  },
  {
   "property": "C110",
   "status": "partial",
   "theorems": [
    "C110_classical_partial",
    "C110_relativistic",
    "C110_classical_refuted"
   ],
   "note": "Relativistic branch for all draws of 53 bits. Classical branch for all draws but one: log(-log U) = 2 reads element 1000."
  },
  {
   "property": "C111",
   "status": "partial",
   "theorems": [
    "C111_table_partial",
    "C111_low_partial",
    "C111_relativistic_partial",
    "C111_tail_refuted",
    "C111_switch_refuted"
   ],
   "note": "Monotone inside each branch (both tables checked entry by entry). False across the branches: the largest draws get an energy 19 times too small, and at the switch to the power law the energy jumps up by more than a half."
  },
  {
   "property": "C112",
   "status": "partial",
   "theorems": [
    "C112_shape_partial",
    "C112_fraction_refuted",
    "C112_named_refuted"
   ],
   "note": "The exponent 2/3 is right. The factor is not: THREE_OVER_4 is defined as 4/3 and stands outside the power, so the energies belong to fractions more than 2.6 times larger."
  },
  {
   "property": "C113",
   "status": "partial",
   "theorems": [
    "C113_gamma_partial",
    "C113_energy_partial",
    "C113_nan_refuted",
    "C113_negative_refuted"
   ],
   "note": "Temperatures between 0.1 and 3000 eV: always a number, greater than -1; at 2916 eV the smallest draws are stored as negative energies (C113_negative_refuted), for which the square root of the velocity is not a number. At 10 keV every draw up to 10^-12 gives NaN, because the code takes the cube root of the negative draw and leaves the loop when comparing with NaN."
  },
  {
   "property": "C114",
   "status": "partial",
   "theorems": [
    "C114_exact",
    "C114_complete_partial",
    "C114_one_row",
    "C114_one_column",
    "C114_corner_refuted"
   ],
   "note": "Exact content for all rectangular grids: row and column neighbours are added. Complete if no domain stored anything in the corners of its overlay (always so for one row or one column of domains). The corner deposits are lost otherwise, because overlay_xy is never called for maps."
  },
  {
   "property": "C115",
   "status": "partial",
   "theorems": [
    "C115_others",
    "C115_density_partial",
    "C115_bare",
    "C115_density_refuted"
   ],
   "note": "True of temperatures, energies and momenta for every list of probes. The density is stitched only if its probe is the last one of the species; any later probe of another quantity recalculates the density and the bare map is written (C115_bare, C115_density_refuted)."
  },
  {
   "property": "C116",
   "status": "partial",
   "theorems": [
    "C116_own",
    "C116_border_iff",
    "C116_border_refuted"
   ],
   "note": "The interior is what each domain calculated alone (C116_own, for every list of probes). At a border it is the mean of all particles exactly if both domains have the same mean (C116_border_iff), which is false in general."
  },
  {
   "property": "C117",
   "status": "proved",
   "theorems": [
    "C117_balance",
    "C117_centred",
    "C117_free"
   ],
   "note": "For fields that vanish in the wall cells (as at the start, preserved by every step) and magnetic fields made by calc_field_h (as after every step)."
  },
  {
   "property": "C118",
   "status": "partial",
   "theorems": [
    "C118_stable",
    "C118_bounded",
    "C118_safe_step",
    "C118_unstable_refuted",
    "C118_accepted_refuted"
   ],
   "note": "Bounded for ever if dt^2 (5/dr^2 + 4/dz^2) < 4 eps mu, e.g. 2/3 of the accepted limit for square cells. Above dt^2 (8/(3 dr^2) + 2/dz^2) > 4 eps mu arbitrarily small fields grow without bound, and the check accepts such a step with no message. Between the two limits nothing is shown."
  },
  {
   "property": "C119",
   "status": "partial",
   "theorems": [
    "C119_flux_partial",
    "C119_corner",
    "C119_corner_refuted"
   ],
   "note": "All nodes but the one on the axis next to the left wall. There E_z on the axis is not updated at k = 0 although the walls leave it to the axis formula; C119_corner gives the exact charge that appears at every step."
  },
  {
   "property": "C120",
   "status": "partial",
   "theorems": [
    "C120_gauss_partial",
    "C120_radial_refuted"
   ],
   "note": "For moves that are oblique (as in C67) or radial inside one cell, any number of particles and steps. A purely radial move across a border of cells leaves a wrong charge (C120_radial_refuted); so do the excluded moves of C67-C69."
  },
  {
   "property": "C121",
   "status": "partial",
   "theorems": [
    "C121_zigzag_exact",
    "C121_zigzag_partial",
    "C121_vb_partial",
    "C121_vb_exact",
    "C121_vb_own_partial",
    "C121_corner_refuted",
    "C121_azimuthal_refuted"
   ],
   "note": "ZigZag: holds for one row or one column of domains, and for all divisions if no particle comes from the lower neighbour in the last column (or from the left one in the last row); C121_zigzag_exact says what is left out otherwise, C121_corner_refuted is an instance. Villasenor-Buneman: the radial and longitudinal currents agree under the same kind of condition; the azimuthal current deposited in ghost cells is always lost (C121_azimuthal_refuted), so all of it agrees only when the particles that turn round the axis are not in the last row or column (C121_vb_own_partial)."
  },
  {
   "property": "C122",
   "status": "partial",
   "theorems": [
    "C122_zigzag_partial",
    "C122_vb_partial",
    "C122_refuted"
   ],
   "note": "Under the conditions of C121 in every round; the particles of each round are given. Beyond them the fields differ (C122_refuted)."
  },
  {
   "property": "C123",
   "status": "partial",
   "theorems": [
    "C123_gauss_partial",
    "C123_runs",
    "C123_refuted"
   ],
   "note": "For the moves of C120, if no particle deposits in the two corners of ghost cells that the stitching leaves out (always so for one row or column of domains), at all nodes but the first on the axis (see C119). The lost azimuthal current of C121 does not matter for Gauss's law. C123_refuted: a particle that crosses the border of two rows of domains next to a corner breaks the law."
  },
  {
   "property": "C124",
   "status": "partial",
   "theorems": [
    "C124_flight_partial",
    "C124_divisions_partial",
    "C124_border_refuted",
    "C124_long_refuted"
   ],
   "note": "Holds for particles that do not land exactly on a border of a domain and whose move is shorter than the domain by more than one and a half cells; C124_border_refuted: a particle that lands exactly on the lower or left border of an outer domain is not reflected at the wall; C124_long_refuted: a longer move from an inner domain to the wall zone is not reflected."
  },
  {
   "property": "C125",
   "status": "partial",
   "theorems": [
    "C125_round_partial",
    "C125_run_partial",
    "C125_deterministic",
    "C125_vb_round_partial",
    "C125_vb_run_partial",
    "C125_refuted"
   ],
   "note": "For rounds in which the particles stay between the mirrors, move by less than a cell and not exactly onto a border; with more than one row and column of domains they must not be near the lower right or upper left corner of a domain (C125_refuted, C126_corner_refuted, C121_corner_refuted). With the Villasenor-Buneman deposition also: noticeable radial moves (C99) and no azimuthal velocity in the last row or column of cells of a domain (C121_azimuthal_refuted). Exact arithmetic, so the order of sums does not matter. Without collisions, external fields, boundary heating and beams."
  },
  {
   "property": "C126",
   "status": "partial",
   "theorems": [
    "C126_corners_partial",
    "C126_row",
    "C126_corner_refuted"
   ],
   "note": "Holds for all ghost cells except the corner blocks towards the lower right and upper left neighbours, which hold zero after each step (C126_corner_refuted: a particle there feels another field); for one row or one column of domains it holds for all (C126_row)."
  },
  {
   "property": "C127",
   "status": "partial",
   "theorems": [
    "C127_lists",
    "C127_once",
    "C127_defined",
    "C127_unread",
    "C127_no_ub",
    "C127_runs",
    "C127_stale_refuted",
    "C127_names_refuted"
   ],
   "note": "Holds for the lists of the inner cells, for fewer than 2^23 particles. C127_stale_refuted: the lists of the cells around the domain are never emptied and keep pointers of earlier rounds (never read, C127_unread). C127_names_refuted: without a species called electrons and one called ions the round works with uninitialised pointers. C127_runs (the round ends with numbers) is for TA77S; SK98 and P12 see C54, C81, C83."
  },
  {
   "property": "C128",
   "status": "partial",
   "theorems": [
    "C128_partial",
    "C128_velocities",
    "C128_beam_refuted",
    "C128_cold_refuted"
   ],
   "note": "Holds if all species that are not ions have the mass of the electrons and if in each cell the electrons (and the ions) have a thermal energy before and after the collisions. C128_beam_refuted: a species of another mass counts as electrons, momentum changes. C128_cold_refuted: a cell with one electron and one ion of different weights, nothing is corrected, momentum changes."
  },
  {
   "property": "C130",
   "status": "partial",
   "theorems": [
    "C130_scaling",
    "C130_ta77",
    "C130_order",
    "C130_p12",
    "C130_sk98_refuted",
    "C130_speed_refuted",
    "C130_sk98_draw",
    "C130_p12_dense",
    "C130_dense_distance",
    "C130_p12_angle",
    "C130_fast_refuted"
   ],
   "note": "Holds for TA77S, and for slow pairs of P12 with the speed that P12 takes. SK98 takes the momentum with the mass of the second particle, so its variance is too small by the squared ratio of masses (C130_sk98_refuted). SK98 and P12 take the difference instead of the sum of the opposite velocities in the center-of-mass frame as relative speed (C130_speed_refuted). SK98 uses the draw with the variance of the lower density and no other (C130_sk98_draw). In dense plasmas P12 limits the parameter to the mean distance of the particles (C130_p12_dense, C130_dense_distance). For fast pairs P12 multiplies by the momentum of the first particle in the laboratory frame instead of the one in the center-of-mass frame (C130_fast_refuted)."
  },
  {
   "property": "C129",
   "status": "partial",
   "theorems": [
    "C129_sk98_partial",
    "C129_p12_partial",
    "C129_weights_refuted",
    "C129_nan_refuted"
   ],
   "note": "Holds for rounds that end with numbers, if all particles have the same weight (at least one for P12) and all species that are not ions have the mass of the electrons. C129_weights_refuted: electron of weight 1 and ion of weight 2, momentum changes. C129_nan_refuted: opposite momenta, the velocities are not numbers after the round."
  },
  {
   "property": "C131",
   "status": "proved",
   "theorems": [
    "C131_column",
    "C131_row",
    "C131_dot",
    "C131_edge_refuted"
   ],
   "note": "For columns, rows and dots inside of the area. A column just behind the last one is accepted too and filled with ghost cells (C131_edge_refuted). The bookkeeping of the configuration for these shapes is C60's subject: it writes to elements of an empty vector."
  },
  {
   "property": "C132",
   "status": "partial",
   "theorems": [
    "C132_datasets_partial",
    "C132_same_group_refuted",
    "C132_none_refuted"
   ],
   "note": "Holds if no two probes share component, species and shape. Otherwise the group exists already, createGroup of HighFive throws and the program ends (C132_same_group_refuted). Without probes the constructor reads the first element of an empty vector (C132_none_refuted)."
  },
  {
   "property": "C133",
   "status": "partial",
   "theorems": [
    "C133_fields",
    "C133_quantities",
    "C133_last",
    "C133_unknown_refuted"
   ],
   "note": "Holds for all known components; of several species with one name the last one is written (C133_last). The configuration accepts any component name; an unknown one leaves the pointer to the values uninitialised (C133_unknown_refuted)."
  },
  {
   "property": "C134",
   "status": "partial",
   "theorems": [
    "C134_free_partial",
    "C134_collector_refuted",
    "C134_distribute_partial",
    "C134_distribute_refuted"
   ],
   "note": "Free of races if in each round at most one row of domains loses particles, and the initial distribution if it draws nothing. Refuted for all other cases: two rows of a colour from which particles leave share the counter of moved particles, and the vector of particles of the domain between them (C134_collector_refuted); all domains share one generator of random numbers without a lock (C134_distribute_refuted)."
  },
  {
   "property": "C135",
   "status": "partial",
   "theorems": [
    "C135_ranks_partial",
    "C135_takes_place",
    "C135_one_process",
    "C135_magnetic_refuted"
   ],
   "note": "Proved for the electric field and field_h_at_et with their ghost cells and for the inner cells of field_h, for all numbers of steps. False for the ghost cells of field_h at a border between processes: field_h_overlay exchanges field_h_at_et only, so they hold zero, and the pusher, which reads field_h, gives a particle near the border a weaker magnetic field (witness: two processes, one step). Corner blocks of ghost cells are left out, as in C65 (they are treated in C126)."
  },
  {
   "property": "C136",
   "status": "proved",
   "theorems": [
    "C136_distribution",
    "C136_mean",
    "C136_relaxation"
   ],
   "note": "The mean is defined by an antiderivative over the draws. The coefficients of the fit are checked with verified fixed-point bounds of exponentials on 1160 pieces of [0.1, 3]."
  },
  {
   "property": "C137",
   "status": "partial",
   "theorems": [
    "C137_rectangle",
    "C137_column_partial",
    "C137_dot_partial",
    "C137_column_refuted",
    "C137_row_refuted",
    "C137_maps_refuted"
   ],
   "note": "Rectangles are written completely and rightly in every order of the writers (for rectangles whose first and last rows are not on a border between radial domains, as in C16). Columns and dots inside the slab of a process are right. False otherwise: on the border of two processes both write the column, the left one its ghost cells, and the last one wins; the dataset of a row has the cells of one slab only, because geometry_smb is the same object as geometry_global, and every process but the first gets an exception; maps of particles are not stitched between processes."
  },
  {
   "property": "C138",
   "status": "partial",
   "theorems": [
    "C138_text_partial",
    "C138_refuted",
    "C138_first_second_refuted"
   ],
   "note": "The text denotes the elapsed time and would fit into 24 bytes. False: the block allocated by 'new char' has one byte and every text overruns it; after exactly one minute, hour or day the text is 60s, 3600s or 86400s."
  },
  {
   "property": "C139",
   "status": "partial",
   "theorems": [
    "C139_partial",
    "C139_refuted"
   ],
   "note": "True at addresses divisible by 32; the store instruction requires them, the alignment of a double array is 8 and the call is undefined elsewhere."
  },
  {
   "property": "C140",
   "status": "partial",
   "theorems": [
    "C140_shift",
    "C140_phase_velocity",
    "C140_refuted"
   ],
   "note": "Proved: with the largest time step every wave form moves one cell per step, with smaller ones every harmonic wave along z is a solution, and none is faster than 1/sqrt(eps0 mu0); this holds in the part of the domain the boundaries have not yet reached. False for the velocity of light: EPSILON0 * MAGN_CONST * LIGHT_VEL^2 is 1.00359, so that the waves have less than 2.995e8 m/s and electrons with a Lorentz factor of 17 overtake them."
  },
  {
   "property": "C141",
   "status": "partial",
   "theorems": [
    "C141_partial",
    "C141_refuted"
   ],
   "note": "Holds for the start 0. A later start is read from the configuration and never used: the run begins at time 0."
  },
  {
   "property": "C142",
   "status": "partial",
   "theorems": [
    "C142_energy",
    "C142_sampled",
    "C142_warm_partial",
    "C142_cold_refuted",
    "C142_electrons_refuted",
    "C142_ions_refuted",
    "C142_rectangular_refuted",
    "C142_eigen_refuted"
   ],
   "note": "Thermal distribution: from 10 eV to 3 keV the mean kinetic energy is 3/2 T within 9%. False below: under 0.1 eV the sampled energies have the mean 3/2 T (within 2%), but the three components drawn from [-1, 1] and the factor 1/sqrt(2) leave half of it (48-52%); the electrons of the default configuration (1 eV) get 77-81%, the ions (0.1 eV) 51-61%, as the temperature in eV is taken for a temperature in units of m c^2. The rectangular distribution gives two thirds, the eigen distribution twice the energy (and one common velocity). Means are given by lower and upper sums over the 1000 table entries, with every exponential bounded in fixed-point arithmetic. Rounding to double and the energies below zero of C113 are left out."
  },
  {
   "property": "C143",
   "status": "partial",
   "theorems": [
    "C143_density_partial",
    "C143_hollow_refuted",
    "C143_total_refuted",
    "C143_unique"
   ],
   "note": "Exact in expectation for rings between dr/2 and R + dr/2, over all domains of the column (number of macro-particles divisible by the number of bunches, before the rounding up of C62). The first half cell at the axis stays empty and the beam is half a cell too wide, so that the bunch has dr/R more particles than configured."
  },
  {
   "property": "C144",
   "status": "partial",
   "theorems": [
    "C144_places_partial",
    "C144_outside_refuted",
    "C144_domain_refuted",
    "C144_first_cell_refuted"
   ],
   "note": "The shift by half a cell puts particles up to half a cell outside the beam and into the next domain; the first cell in z is left when the beam crosses more than half a cell per step."
  },
  {
   "property": "C145",
   "status": "partial",
   "theorems": [
    "C145_own_cell_partial",
    "C145_undefined_refuted",
    "C145_refuted",
    "C145_skipped_refuted"
   ],
   "note": "A fresh particle is in the list of its cell exactly if its radius falls into the longitudinal range of that cell. Otherwise it collides elsewhere or not at all, and when the radius is more than two cells beyond the right border of the domain the sorting writes outside the grid."
  },
  {
   "property": "C146",
   "status": "partial",
   "theorems": [
    "C146_vector",
    "C146_number_partial",
    "C146_number_refuted",
    "C146_in_place",
    "C146_binary",
    "C146_comparisons",
    "C146_dot_partial",
    "C146_dot_lanes",
    "C146_dot_refuted",
    "C146_cross",
    "C146_cross_refuted"
   ],
   "note": "Right for every number of lanes: the operators with vectors, the operators that return a new vector, and the compound operators with a number that is not one of the first two components of the vector itself. The loop of dot lacks a reduction clause: with two or more lanes in lockstep it loses products. cross, pow and abs change the vector they are asked of."
  },
  {
   "property": "C147",
   "status": "partial",
   "theorems": [
    "C147_owned_partial",
    "C147_nothing_freed",
    "C147_removed_refuted",
    "C147_leak_refuted",
    "C147_exchange"
   ],
   "note": "Pointers are unique and valid in every reachable state and no object is deleted twice, with MPI too; the objects of the particles sent to a neighbour are deleted exactly once. The particles that the collector removes at the borders of the area are never deleted: without MPI the number of objects only grows. Missing: the release of the objects of lost particles, which the code does not do."
  },
  {
   "property": "C148",
   "status": "proved",
   "theorems": [
    "C148_round",
    "C148_run",
    "C148_pushers",
    "C148_adaptive_refuted"
   ],
   "note": "For any R x C domains of s x s cells (s >= 4), ZigZag and Villasenor-Buneman; particles between the mirrors and not exactly on the border of two domains. The adaptive Boris pusher is not defined for a particle at rest, as it reads a variable without value."
  },
  {
   "property": "C149",
   "status": "partial",
   "theorems": [
    "C149_start_partial",
    "C149_neutral",
    "C149_same_places",
    "C149_for_ever",
    "C149_refuted",
    "C149_random_refuted"
   ],
   "note": "The fields start as zero and the program does not solve for the field of the initial charges, so the law holds at a node exactly if the charges around it cancel: for two opposite species at the same places (the placements that draw nothing). It fails for a single species, in a plasma at rest for ever, and for a neutral plasma placed at random."
  },
  {
   "property": "C150",
   "status": "partial",
   "theorems": [
    "C150_round_partial",
    "C150_takes_place",
    "C150_run_partial",
    "C150_run_takes_place",
    "C150_current_sum",
    "C150_border_refuted",
    "C150_corner_refuted"
   ],
   "note": "Proved for any number of ranks and of R x C domains of s x s cells (s >= 4) per rank, ZigZag, any schedule of the messages, if particles move less than a cell per step and, with several ranks, do not start where the magnetic field of two ranks is read (one cell left and half a cell right of a border between ranks: the ghost cells of field_h hold zero there, so such a particle feels a different field, C150_border_refuted), and, with several rows, do not deposit across a corner between ranks (those deposits get lost, C150_corner_refuted; C150_current_sum says exactly which). C150_takes_place: such a round exists, if the MPI library stores enough messages. Missing: the particles at the borders, for which the property is false."
  },
  {
   "property": "C151",
   "status": "proved",
   "theorems": [
    "C151_superposition",
    "C151_dependence"
   ],
   "note": "For the Yee solver of one domain; the fields are real numbers."
  },
  {
   "property": "C152",
   "status": "proved",
   "theorems": [
    "C152_step",
    "C152_for_ever",
    "C152_none"
   ],
   "note": "For the Yee solver of one domain."
  },
  {
   "property": "C153",
   "status": "proved",
   "theorems": [
    "C153_nothing_lost",
    "C153_cancelled_refuted"
   ],
   "note": "For the Yee solver of one domain, with the same values in the cells around it. C153_cancelled_refuted: with the conductivity excluded by the statement the old field is lost."
  },
  {
   "property": "C154",
   "status": "partial",
   "theorems": [
    "C154_pairs",
    "C154_temperature",
    "C154_at_rest_partial",
    "C154_length_refuted",
    "C154_beam_refuted"
   ],
   "note": "The code takes the mean kinetic energy in the laboratory frame without the factor 2/3: 3/2 of the temperature and the energy of the drift (C154_temperature). Without drifts the length is sqrt(3/2) times the right one, with drifts more; particles that all move alike get a temperature."
  },
  {
   "property": "C155",
   "status": "partial",
   "theorems": [
    "C155_reads",
    "C155_required",
    "C155_amounts",
    "C155_step",
    "C155_limits",
    "C155_probe",
    "C155_specie_refuted"
   ],
   "note": "C155_reads: accepted exactly if so, with the values read; picojson itself and the text of the file are not modelled, numbers are exact. C155_probe: agrees with the reader of probes of C60. C155_specie_refuted: the species of a probe may be missing or misspelt, the probe then is for \"unknown\"."
  },
  {
   "property": "C156",
   "status": "proved",
   "theorems": [
    "C156_kept",
    "C156_options",
    "C156_again",
    "C156_lost_refuted"
   ],
   "note": "C156_kept also says what is added: null for the species of probes that do not name one. C156_lost_refuted: options of a build that are in the file are replaced, as the statement allows."
  },
  {
   "property": "C157",
   "status": "partial",
   "theorems": [
    "C157_attributes_partial",
    "C157_comment_refuted",
    "C157_probes_refuted"
   ],
   "note": "The attributes are written exactly if the configuration has a comment (a string) and at least one probe; without a comment the program ends before the first step, without probes the behaviour is undefined."
  },
  {
   "property": "C158",
   "status": "partial",
   "theorems": [
    "C158_particles_partial",
    "C158_gauss_partial",
    "C158_divided_partial",
    "C158_radial_refuted"
   ],
   "note": "Exact real arithmetic, no beams, collisions and external fields. For particles between the mirrors that move by less than a cell, on the ways of C120 (the scheme is not right on others, see C67 and C120; C158_radial_refuted is a round of the main loop in which a particle flies straight outwards over a border of cells); at all nodes inside the walls but the first one on the axis. The field stands for the charge before the last move, as the fields are advanced first in a round."
  },
  {
   "property": "C159",
   "status": "proved",
   "theorems": [
    "C159_account",
    "C159_flight",
    "C159_remain",
    "C159_run",
    "C159_new_fields"
   ],
   "note": "Exact real arithmetic. The collisions are a relation that keeps everything but velocities (proved of the model of the collisions in C161). The flight is stated for one domain. C159_new_fields: in any division into domains the particles are pushed in the fields the round ends with (no collisions)."
  },
  {
   "property": "C160",
   "status": "partial",
   "theorems": [
    "C160_balance_partial",
    "C160_run_partial",
    "C160_gauss_refuted"
   ],
   "note": "The law does not hold: a particle that a beam injects brings its charge without a flux, and one that leaves takes its charge without a current (refuted by an injected particle). Proved instead: the error of the law changes in a round, and in a run, by exactly the charge of the particles that left minus that of the particles that came, where both had been before the move. Villasenor-Buneman, one domain, for ways of C120, at all nodes inside the walls but the first one on the axis."
  },
  {
   "property": "C161",
   "status": "partial",
   "theorems": [
    "C161_velocities",
    "C161_sk98_partial",
    "C161_p12_partial",
    "C161_flight",
    "C161_round_partial",
    "C161_p12_round_partial",
    "C161_weights_refuted"
   ],
   "note": "Exact real arithmetic. Particles of one weight (C161_weights_refuted: with the weights 1 and 2 the momentum of the domain changes) whose species have the masses of the electrons and ions, and results that are numbers (see C128, C129 for what happens otherwise). As written, Domain::collide calls a member that does not exist; its operator() is modelled."
  },
  {
   "property": "C162",
   "status": "proved",
   "theorems": [
    "C162_run",
    "C162_none",
    "C162_sk98",
    "C162_p12",
    "C162_ta77s_refuted"
   ],
   "note": "Exact real arithmetic. The operator TA77S is not covered: a phase of it makes an electron faster than all particles were before, and faster than light if they were near it (refuted). The classical Boris pusher: see C46_classic_refuted."
  },
  {
   "property": "C163",
   "status": "partial",
   "theorems": [
    "C163_meridian_partial",
    "C163_step_partial",
    "C163_angular_refuted",
    "C163_inward_refuted"
   ],
   "note": "Holds for any number of steps without azimuthal velocity, on one side of the axis (beyond it see C33_crossing_refuted). With azimuthal velocity the place after a step is right, the velocity is turned in the wrong sense: the angular momentum grows by 2 v_r v_phi dt, and a particle that recedes from the axis is slowed down in the radial direction instead of sped up."
  },
  {
   "property": "C164",
   "status": "partial",
   "theorems": [
    "C164_balance_partial",
    "C164_run_partial",
    "C164_gauss_refuted"
   ],
   "note": "As for one domain (C160) the law itself is false when particles come or leave; proved: the error changes by exactly the charge that left minus the charge that came, whatever the particles do at the seams and whatever becomes of the azimuthal current there. Villasenor-Buneman, for ways of C120, particles that do not end near the two corners of a domain whose deposits get lost (C121), at all nodes inside the walls but the first one on the axis."
  },
  {
   "property": "C165",
   "status": "proved",
   "theorems": [
    "C165_path",
    "C165_path_only",
    "C165_rec",
    "C165_rec_other",
    "C165_rec_range",
    "C165_row_rec",
    "C165_col_rec",
    "C165_dot_rec",
    "C165_row_rec_range",
    "C165_col_rec_range",
    "C165_dot_rec_range",
    "C165_dot",
    "C165_dot_range"
   ],
   "note": "HDF5, h5py and numpy are libraries, see ReaderModel.v for what is used of them. The ranges of rows (columns) need a rectangle over the whole longitude (radius), see C168 for others. Probes on borders of domains: see C17. Dots: what was written is C131; the configuration reader does not create such probes as it stands (C60)."
  },
  {
   "property": "C166",
   "status": "proved",
   "theorems": [
    "C166_time",
    "C166_frame",
    "C166_nearest",
    "C166_row",
    "C166_row_nearest",
    "C166_half",
    "C166_half_frame"
   ],
   "note": "Exact real arithmetic; for the rounding of the time that the run adds up see C19."
  },
  {
   "property": "C167",
   "status": "proved",
   "theorems": [
    "C167_values",
    "C167_domains_refuted",
    "C167_lines",
    "C167_other_shape"
   ],
   "note": "Numbers exact; the text of the JSON in the metadata is not modelled. The amount of domains is that of the run only in builds for several processors: a build for one shows the amount of the file (refuted for these)."
  },
  {
   "property": "C168",
   "status": "partial",
   "theorems": [
    "C168_col_partial",
    "C168_row_partial",
    "C168_col_refuted",
    "C168_row_refuted",
    "C168_col_range_refuted",
    "C168_part_range_refuted",
    "C168_all_frames_refuted"
   ],
   "note": "False: every column (row) asked for is looked for at 0, so that only column 0 and row 0 are found; a range of columns is always refused, as is a range of rows or columns of a rectangle that is smaller than the area, and every range without an end."
  },
  {
   "property": "C169",
   "status": "partial",
   "theorems": [
    "C169_cell_partial",
    "C169_cell_refuted",
    "C169_outermost_refuted"
   ],
   "note": "Holds in the lower half of a cell. In the upper half the next row is given, and the outermost half cell of the area cannot be read by its radius."
  },
  {
   "property": "C170",
   "status": "partial",
   "theorems": [
    "C170_opens_partial",
    "C170_opens_refuted"
   ],
   "note": "The library opens the results exactly if the configuration has also the amounts of domains, the absorbing layers and all settings of plots, also if the build does not use them; a run that started without them cannot be opened."
  },
  {
   "property": "C171",
   "status": "proved",
   "theorems": [
    "C171_reversal",
    "C171_one_domain",
    "C171_collisions",
    "C171_even"
   ],
   "note": "Exact real arithmetic. The draws of the two runs are the same. The collisions are a parameter of the round; C171_collisions and C171_even show that the model of them is the same for opposite charges."
  },
  {
   "property": "C172",
   "status": "proved",
   "theorems": [
    "C172_scaling",
    "C172_one_domain",
    "C172_nothing"
   ],
   "note": "Exact real arithmetic; collisions have to be the same in both runs (they are not scaled)."
  },
  {
   "property": "C173",
   "status": "partial",
   "theorems": [
    "C173_classic",
    "C173_relativistic",
    "C173_adaptive_partial",
    "C173_vay_partial",
    "C173_path",
    "C173_hc_refuted",
    "C173_vay_refuted"
   ],
   "note": "Holds for both pushers of Boris (the adaptive one only above the limit, below it its behaviour is undefined, C74) and for any number of pushes. Vay only if the speed of light is 1; refuted for HC and for Vay with the speed of light of the code."
  },
  {
   "property": "C174",
   "status": "proved",
   "theorems": [
    "C174_pushers",
    "C174_run",
    "C174_one_domain"
   ],
   "note": "Exact real arithmetic. Rounds in which a particle lands on the axis are left out (0/0). The collisions of the code are three-dimensional and do leave the plane: they are a parameter that has to keep it."
  },
  {
   "property": "C175",
   "status": "partial",
   "theorems": [
    "C175_solver",
    "C175_currents",
    "C175_magnetic",
    "C175_pushers_partial",
    "C175_flight",
    "C175_electric_refuted",
    "C175_hc_refuted"
   ],
   "note": "False for the electric field at the particles: a part of the azimuthal component is added to the longitudinal one (C41), so its sign matters; false for the pusher HC. All the other parts commute."
  },
  {
   "property": "C176",
   "status": "proved",
   "theorems": [
    "C176_round",
    "C176_run",
    "C176_undivided",
    "C176_none",
    "C176_line_refuted"
   ],
   "note": "Exact real arithmetic. Collisions are a parameter that has to be defined on such states (SK98 is not always, C129_nan_refuted). A particle that lands exactly on a line between two domains is not reflected by the walls; then the next round is not covered (C176_line_refuted)."
  },
  {
   "property": "C177",
   "status": "proved",
   "theorems": [
    "C177_numbers",
    "C177_check",
    "C177_no_electrons",
    "C177_message",
    "C177_no_beam",
    "C177_check_refuted",
    "C177_start_refuted",
    "C177_names_refuted",
    "C177_cold_refuted"
   ],
   "note": "Exact real arithmetic. The _refuted theorems show that the preconditions are needed: the Debye length of the check differs for different densities, the start time is ignored by the program, names such as 'electron' and cold ions are accepted by the program and end the tool with an exception."
  },
  {
   "property": "C178",
   "status": "proved",
   "theorems": [
    "C178_round",
    "C178_run",
    "C178_length",
    "C178_no_beams",
    "C178_wide_refuted"
   ],
   "note": "Exact real arithmetic. Collisions are a parameter that has to be defined on such states, as in C176. C178_wide_refuted shows that the half cell to spare is needed: the code shifts the injected particles outwards by half a cell."
  },
  {
   "property": "C179",
   "status": "proved",
   "theorems": [
    "C179_round",
    "C179_run",
    "C179_no_collisions",
    "C179_same",
    "C179_vb_refuted"
   ],
   "note": "Exact real arithmetic. Collisions are a parameter that has to treat the finer particles as the others; no collisions do. C179_vb_refuted is for the other deposition scheme: two orders of the particles give different radial currents."
  },
  {
   "property": "C180",
   "status": "proved",
   "theorems": [
    "C180_classical",
    "C180_classical_rises",
    "C180_classical_nodes",
    "C180_low",
    "C180_proposal",
    "C180_proposal_rises",
    "C180_proposal_nodes",
    "C180_loop",
    "C180_cases",
    "C180_read_refuted",
    "C180_low_refuted",
    "C180_top_refuted",
    "C180_hot_refuted"
   ],
   "note": "Exact real arithmetic, the tables as the decimal literals of the source. That the entries are those of the inverse distribution functions is not proved. The _refuted theorems are the faults named in the statement."
  },
  {
   "property": "C181",
   "status": "proved",
   "theorems": [
    "C181_energy",
    "C181_start"
   ],
   "note": "Exact real arithmetic. A Lorentz factor below 1 yields a negative energy, of which the code takes the square root; such energies are excluded in C181_start. For larger temperatures see C91_thermal_refuted and C180_hot_refuted."
  }
 ]
}