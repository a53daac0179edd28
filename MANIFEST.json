{
 "claims": [
  {
   "property": "C01",
   "status": "partial",
   "theorems": [
    "c01_index_bijection",
    "c01_chain_any_size",
    "c01_container_large_refuted",
    "c01_container_negative_refuted"
   ],
   "note": "Container subscripts: proved when the product of the trailing extents is below 2^31; refuted above (strides are accumulated in an int). Chained subscripts: no bound."
  },
  {
   "property": "C02",
   "status": "proved",
   "theorems": [
    "c02_coordinates"
   ],
   "note": "Every dimension of every non-empty array; the recovered tuple is the unique one."
  },
  {
   "property": "C03",
   "status": "partial",
   "theorems": [
    "c03_range_constructor",
    "c03_nested_constructor",
    "c03_sized_constructor",
    "c03_nested_assignment",
    "c03_overflow",
    "c03_wrap_refuted"
   ],
   "note": "Proved when the product of the extents is below 2^64; refuted when it wraps (an empty range is accepted for 2^32 x 2^32)."
  },
  {
   "property": "C04",
   "status": "proved",
   "theorems": [
    "c04_resize_one",
    "c04_resize_all",
    "c04_resize_rank"
   ],
   "note": "For leading and trailing extent products below 2^32 (the code computes them in unsigned int); see c05_insert_large_refuted for what happens beyond."
  },
  {
   "property": "C05",
   "status": "partial",
   "theorems": [
    "c05_insert",
    "c05_erase",
    "c05_erase_insert",
    "c05_insert_exceptions_moving",
    "c05_insert_exceptions_copying",
    "c05_erase_exceptions_copying",
    "c05_insert_large_refuted"
   ],
   "note": "Proved for extent products below 2^32, including exceptions thrown by element copies; refuted beyond (unsigned int iteration count wraps)."
  },
  {
   "property": "C06",
   "status": "partial",
   "theorems": [
    "c06_reshape",
    "c06_large_refuted"
   ],
   "note": "Proved when the new total is below 2^32; refuted beyond."
  },
  {
   "property": "C07",
   "status": "proved",
   "theorems": [
    "c07_sum_dim",
    "c07_sum_same_rank",
    "c07_total",
    "c07_any_order"
   ],
   "note": "Elements are integers (exact addition)."
  },
  {
   "property": "C08",
   "status": "proved",
   "theorems": [
    "c08_broadcast",
    "c08_incompatible"
   ],
   "note": "Every rank, shape and operation."
  },
  {
   "property": "C09",
   "status": "partial",
   "theorems": [
    "c09_scalar_ops_partial",
    "c09_scalar_div_refuted",
    "c09_alias_refuted",
    "c09_compound",
    "c09_compound_shapes_refuted"
   ],
   "note": "scalar/array is refuted (it computes array/scalar); op= with a reference to an element of the array itself is refuted; array op= array does not compare shapes. The remaining operations are proved."
  },
  {
   "property": "C10",
   "status": "partial",
   "theorems": [
    "c10_arrays_are_values",
    "c10_mixed_allocators_refuted"
   ],
   "note": "Proved when all arrays use one allocator (or equal ones); refuted for move assignment between allocators that are not interchangeable."
  },
  {
   "property": "C11",
   "status": "partial",
   "theorems": [
    "c11_aligned_block",
    "c11_release_iff",
    "c11_overflow_refused",
    "c11_large_alignment_refuted"
   ],
   "note": "Proved for alignments up to 128 bytes; exact condition for any alignment; refuted from 256 bytes on."
  },
  {
   "property": "C12",
   "status": "partial",
   "theorems": [
    "c12_in_order_at_most_once",
    "c12_all_run_on_shutdown",
    "c12_zero_workers_refuted"
   ],
   "note": "Proved for one or more workers under every interleaving; refuted for a pool of size 0."
  },
  {
   "property": "C13",
   "status": "proved",
   "theorems": [
    "c13_no_accept_after_stop",
    "c13_no_lost_wakeup",
    "c13_wakeups_cover_tasks",
    "c13_shutdown_progress",
    "c13_shutdown_terminates"
   ],
   "note": "Under every interleaving, with spurious wakeups; critical sections are atomic."
  },
  {
   "property": "C14",
   "status": "partial",
   "theorems": [
    "c14_doubles",
    "c14_doubles_steps",
    "c14_doubles_refuted",
    "c14_infinite_refuted",
    "c14_doubles_increasing",
    "c14_linspace",
    "c14_logspace",
    "c14_zero_refused",
    "c14_single"
   ],
   "note": "Reals for the spacing. In doubles (DblGridModel): length, first and last point, and the steps are proved for all doubles; that the grid is increasing and each point within 4*div rounding errors of the exact one is proved (c14_doubles_increasing) when the range is at least 8*(div-1)^2 rounding errors of emax wide, and refuted for very close ends. The log grid depends on exp and log, which are parameters."
  },
  {
   "property": "C15",
   "status": "partial",
   "theorems": [
    "c15_round_trip",
    "c15_rectangular",
    "c15_ragged",
    "c15_blank_between_refuted",
    "c15_blank_last_refuted",
    "c15_no_numbers",
    "c15_empty_file_refuted",
    "c15_precision_refuted"
   ],
   "note": "Round trip and ragged rows proved; lines without numbers between or after rows are refuted; 15 digits lose precision (refuted)."
  },
  {
   "property": "C16",
   "status": "partial",
   "theorems": [
    "c16_affine",
    "c16_local",
    "c16_local_affine",
    "c16_constructor",
    "c16_nodes",
    "c16_line",
    "c16_continuous",
    "c16_C1_partial",
    "c16_kink_refuted",
    "c16_accessors",
    "c16_derivatives",
    "c16_weights"
   ],
   "note": "Constructor, node values, straight lines, continuity, accessors, derivatives and Akima's weights at every node proved; C1 at every node except where the end-slope rule keeps the neighbouring slope (kink, refuted there)."
  },
  {
   "property": "C17",
   "status": "proved",
   "theorems": [
    "c17_constructor",
    "c17_nodes",
    "c17_continuous",
    "c17_smooth"
   ],
   "note": "Node values, continuity and smoothness across cells for every grid the constructor accepts."
  },
  {
   "property": "C18",
   "status": "partial",
   "theorems": [
    "c18_constructor_partial",
    "c18_tall_refuted",
    "c18_nodes",
    "c18_continuous",
    "c18_no_table",
    "c18_dydz_refuted",
    "c18_product_refuted"
   ],
   "note": "Proved for grids with at most as many y as x coordinates (the constructor reads past a slice otherwise: refuted); mixed y-z derivative and exactness on products refuted."
  },
  {
   "property": "C19",
   "status": "partial",
   "theorems": [
    "c19_between",
    "c19_numbers",
    "c19_nan_refuted",
    "c19_one_nan_refuted",
    "c19_partition",
    "c19_reversed",
    "c19_exact_rules",
    "c19_exact_13",
    "c19_exact_result",
    "c19_refused",
    "c19_supplied_ends",
    "c19_supplied_ends_reversed_refuted",
    "c19_nonnegative",
    "c19_terminates",
    "c19_unbounded_refuted"
   ],
   "note": "All integrands. Supplied end values are proved harmless when they match the ordered ends; refuted for reversed arguments. The result is between the bounds of the integrand times the width (c19_between). Termination proved for every integrand that is bounded near zero (any integrand if zero is away from the interval); refuted over the reals for one that is not, since the check on the width never stops the piece that begins at zero. With values which may be NaN (QuadNanModel, proved equal to QuadModel for numbers) a NaN integrand is split down to rounding width: refuted that it is reported."
  },
  {
   "property": "C20",
   "status": "partial",
   "theorems": [
    "c20_between",
    "c20_terminates",
    "c20_nan_refuted",
    "c20_documented_rules",
    "c20_affine",
    "c20_affine_average",
    "c20_cubic",
    "c20_nonnegative",
    "c20_sign_ignored_refuted"
   ],
   "note": "Affine exact, cubic exact unless the end values agree, non-negative, between the least and the greatest value, terminates; the agreement check ignores signs (refuted); a NaN cross section hangs the averaging (refuted)."
  },
  {
   "property": "C21",
   "status": "partial",
   "theorems": [
    "c21_handles",
    "c21_use",
    "c21_negative",
    "c21_files_partial",
    "c21_files_refuted"
   ],
   "note": "H5Handle: all histories. H5File: every issued identifier is closed once, but failed opens are kept and closing is called with identifiers never issued (refuted)."
  },
  {
   "property": "C22",
   "status": "partial",
   "theorems": [
    "c22_chunks",
    "c22_empty_refuted",
    "c22_round_trip",
    "c22_names",
    "c22_rank",
    "c22_rank_leak_refuted",
    "c22_attributes",
    "c22_attribute_taken",
    "c22_empty_string_refuted"
   ],
   "note": "Every rank, shape and contents; element conversion must be lossless, target resizing below 2^32. Refuted: compressed arrays with an empty dimension (division by zero), leaked identifiers on a rank mismatch, the empty string attribute."
  },
  {
   "property": "C23",
   "status": "proved",
   "theorems": [
    "c23_profile",
    "c23_symmetric",
    "c23_symmetric_ye",
    "c23_too_long",
    "c23_whole"
   ],
   "note": "Earth medium. Beyond the diameter the lookup throws (c23_too_long)."
  },
  {
   "property": "C24",
   "status": "partial",
   "theorems": [
    "c24_geometry",
    "c24_cosine",
    "c24_profile",
    "c24_surface_refuted",
    "c24_reported",
    "c24_reported_cosine_refuted"
   ],
   "note": "The geometry, the cosine form and the lookups are proved. Refuted: the table's surface is not at the detector's radius (fractions are of radius plus atmosphere); trajectories made from a cosine report the default radius and height."
  },
  {
   "property": "C25",
   "status": "proved",
   "theorems": [
    "c25_vacuum",
    "c25_constant",
    "c25_variable",
    "c25_variable_refused"
   ],
   "note": "Vacuum, constant and variable density; refusal of bad tables."
  },
  {
   "property": "C26",
   "status": "partial",
   "theorems": [
    "c26_bodies",
    "c26_sunasnu_refuted",
    "c26_tracks",
    "c26_atm_track",
    "c26_atm_track_refuted",
    "c26_reverse",
    "c26_track_missing",
    "c26_long_array_refuted",
    "c26_atm_reversed_refuted",
    "c26_sunasnu_track_refuted"
   ],
   "note": "Proved for every medium made from vectors and for the plain, Earth and angle-made atmospheric trajectories. Refuted: SunASnu read from a file, SunASnu trajectories, atmospheric trajectories made from a cosine or reversed."
  },
  {
   "property": "C27",
   "status": "partial",
   "theorems": [
    "c27_first_wins",
    "c27_unknown",
    "c27_stable",
    "c27_empty_refuted",
    "c27_builtin"
   ],
   "note": "Any history of registrations. Refuted only before the first registration: the lookup dereferences a null pointer."
  },
  {
   "property": "C28",
   "status": "proved",
   "theorems": [
    "c28_channels",
    "c28_total",
    "c28_table",
    "c28_weighted_tables"
   ],
   "note": "Riemann integrals over the neutrino energy, for every tau energy, polarisation and mass ratio; the table entries too."
  },
  {
   "property": "C29",
   "status": "partial",
   "theorems": [
    "c29_nonnegative",
    "c29_entries",
    "c29_above_refuted",
    "c29_lookup",
    "c29_type_refuted"
   ],
   "note": "Proved up to the tau's energy and for valid particle types. Refuted: leptonic entries above the tau's energy are negative; the particle type is not checked."
  },
  {
   "property": "C30",
   "status": "proved",
   "theorems": [
    "c30_only_resonance",
    "c30_integral",
    "c30_nonnegative",
    "c30_branching"
   ],
   "note": "Riemann integral over the outgoing energy, any upper limit above the incoming energy. The constants are parameters."
  },
  {
   "property": "C31",
   "status": "partial",
   "theorems": [
    "c31_total_partial",
    "c31_total_nodes",
    "c31_total_top_refuted",
    "c31_single_inside",
    "c31_single_low_refuted",
    "c31_dis_total",
    "c31_no_tables",
    "c31_right_table",
    "c31_dis_single_nodes",
    "c31_dis_single"
   ],
   "note": "V1: proved below the upper end of the range and for outgoing energies inside the table; refuted at the upper end and for low outgoing energies. Current class: proved for every accepted energy."
  },
  {
   "property": "C32",
   "status": "proved",
   "theorems": [
    "c32_sterile",
    "c32_above",
    "c32_below",
    "c32_below_v1",
    "c32_neglected",
    "c32_continuous",
    "c32_capped",
    "c32_average",
    "c32_average_bounds"
   ],
   "note": "Doubles are reals. Tables starting above 10 GeV give the smallest positive number below 10 GeV, as documented in the code."
  },
  {
   "property": "C33",
   "status": "partial",
   "theorems": [
    "c33_hdf_partial",
    "c33_hdf_muon_refuted",
    "c33_hdf_tau_refuted",
    "c33_hdf_shape_refuted",
    "c33_hdf_rounded_refuted",
    "c33_text_total",
    "c33_text_bounds_refuted",
    "c33_text_transposed_refuted",
    "c33_v1_text",
    "c33_v1_hdf_partial",
    "c33_v1_hdf_grid_refuted",
    "c33_hdf_read",
    "c33_sterile",
    "c33_empty",
    "c33_v1_empty_refuted"
   ],
   "note": "HDF5: proved for square tables, equal muon and electron data and values kept by single precision; V1 text, V1 HDF5 with log-uniform energies, text totals proved. Refuted: muon and tau aliasing, non-square tables, single precision, text differential tables, V1 energies."
  },
  {
   "property": "C34",
   "status": "proved",
   "theorems": [
    "c34_first_definition",
    "c34_redefinition_rejected",
    "c34_unknown"
   ],
   "note": "Any history of additions, failed ones included. A null pointer added counts as a definition."
  },
  {
   "property": "C35",
   "status": "partial",
   "theorems": [
    "c35_nucleons",
    "c35_isoscalar_partial",
    "c35_vacuum_refuted",
    "c35_isoscalar_mass_refuted"
   ],
   "note": "Protons and neutrons: proved for every density and electron fraction. One kind of target: proved at electron fraction one half above the floor; refuted in vacuum (the floor gives it targets) and for other fractions (mass)."
  },
  {
   "property": "C36",
   "status": "partial",
   "theorems": [
    "c36_layout",
    "c36_setup_partial",
    "c36_reuse_refuted"
   ],
   "note": "Layout proved for every flavour count, vector count and 8-aligned base address, and for set-ups that keep the number of flavours; refuted when the flavour count changes while the other extents stay (the old block is kept). Overflow of the size computation is not modelled."
  },
  {
   "property": "C37",
   "status": "proved",
   "theorems": [
    "c37_least_multiple",
    "c37_padding_irrelevant"
   ],
   "note": "Least multiple for every count below 2^64-4; table padding, padded size and old buffer contents have no influence on the terms at real nodes in either mode."
  },
  {
   "property": "C38",
   "status": "partial",
   "theorems": [
    "c38_relation_partial",
    "c38_modes_agree_partial",
    "c38_gain_term",
    "c38_sources_twice_refuted",
    "c38_stale_projectors_refuted"
   ],
   "note": "Exact relation of the two paths for energy-independent projectors; equal without sources or with one neutrino type. Refuted: sources counted once per type; stale energy-dependent projectors."
  },
  {
   "property": "C39",
   "status": "proved",
   "theorems": [
    "c39_only_from_above",
    "c39_top_receives_none"
   ],
   "note": "Both modes, all processes together. The scalar product is a parameter."
  },
  {
   "property": "C40",
   "status": "proved",
   "theorems": [
    "c40_nonnegative",
    "c40_scaling"
   ],
   "note": "Both modes; weights of the flavour projectors are non-negative, and the terms scale."
  },
  {
   "property": "C41",
   "status": "partial",
   "theorems": [
    "c41_equal_targets_partial",
    "c41_mixture_refuted",
    "c41_number_conserved_partial"
   ],
   "note": "Exact for equal total cross sections (one kind of target included); number conservation for any mixture; refuted for mixtures of targets with different cross sections."
  },
  {
   "property": "C42",
   "status": "partial",
   "theorems": [
    "c42_composition",
    "c42_any_fraction",
    "c42_only_active",
    "c42_neutron_matter_refuted",
    "c42_continuity_refuted",
    "c42_hamiltonian_mass_basis_refuted"
   ],
   "note": "Signs, sterile, vacuum, electron term and neutron term for electron fractions from 1e-10 on; refuted below (sign and factor of the neutral-current term, continuity) and for GetHamiltonian in the mass basis."
  },
  {
   "property": "C43",
   "status": "proved",
   "theorems": [
    "c43_setup_needed"
   ],
   "note": "Object machine of StateModel.v (calls, outcomes, events); the integrator, density-matrix algebra and tau tables are oracles. A refused evolution changes nothing; a successful one had everything set. Calls that end in undefined behaviour end the history."
  },
  {
   "property": "C44",
   "status": "proved",
   "theorems": [
    "c44_invalidated",
    "c44_present_parameters"
   ],
   "note": "Every parameter, energy or defaults call that succeeds marks the state invalid, and a valid state always has projectors and vacuum Hamiltonian of the present parameters."
  },
  {
   "property": "C45",
   "status": "partial",
   "theorems": [
    "c45_late_tau_refuted",
    "c45_late_glashow_refuted",
    "c45_early_switches_partial",
    "c45_sources"
   ],
   "note": "Refuted: switching on after interactions were initialised leaves buffers of size zero (out-of-bounds write at the next evolution). Partial: safe if all switching on precedes the first evolution or initialisation and libraries are complete."
  },
  {
   "property": "C46",
   "status": "partial",
   "theorems": [
    "c46_tables_stay_refuted",
    "c46_new_library_refuted",
    "c46_first_use_partial"
   ],
   "note": "Refuted: tables once made are never replaced, whatever is called later. Partial: the library supplied last before the first use is used."
  },
  {
   "property": "C47",
   "status": "partial",
   "theorems": [
    "c47_advance",
    "c47_right_exactly",
    "c47_backwards_refuted",
    "c47_plain",
    "c47_from_zero_partial",
    "c47_offset_refuted",
    "c47_single_unset_refuted"
   ],
   "note": "Without positivity proved for all. With it the advance is stated exactly for every trajectory and scale (c47_advance): it is the length only for trajectories starting at 0 (c47_right_exactly), wrong for the others, and a trajectory run backwards goes forward. Objects with one energy have no step scale at all."
  },
  {
   "property": "C48",
   "status": "partial",
   "theorems": [
    "c48_queries",
    "c48_end_partial",
    "c48_tied",
    "c48_again_refuted"
   ],
   "note": "c48_queries holds in every history. The end position is proved without positivity and if the integrator looks at the end of its last step. Refuted: a second evolution without a new trajectory asks the medium beyond the end."
  },
  {
   "property": "C49",
   "status": "partial",
   "theorems": [
    "c49_step",
    "c49_first_partial",
    "c49_second_refuted",
    "c49_forward_refuted"
   ],
   "note": "The step's sign is flipped at every evolution of a reversed trajectory and never put back. Right sign only while no evolution ran backwards."
  },
  {
   "property": "C50",
   "status": "proved",
   "theorems": [
    "c50_phases_unchanged",
    "c50_new_phases"
   ],
   "note": "For every history of calls and any number of flavours."
  },
  {
   "property": "C51",
   "status": "partial",
   "theorems": [
    "c51_beyond_partial",
    "c51_order",
    "c51_boundary_refuted"
   ],
   "note": "Refuted at the boundary: an index equal to the number of flavours is accepted by all three setters (if the library has room for it). Partial: everything beyond is refused and changes nothing."
  },
  {
   "property": "C52",
   "status": "partial",
   "theorems": [
    "c52_ctor_refuted",
    "c52_ctor_evolve_refuted",
    "c52_assign_refuted",
    "c52_retrack_partial",
    "c52_retrack_assign_partial"
   ],
   "note": "Refuted: time_offset is not carried over. Partial: after setting a trajectory again, moved objects that never evolved, and did not use the shortcut or sources, equal the source."
  },
  {
   "property": "C53",
   "status": "partial",
   "theorems": [
    "c53_arrays_partial",
    "c53_new",
    "c53_targets_refuted",
    "c53_equal_items",
    "c53_copy_equal",
    "c53_equal_shapes_partial",
    "c53_equal_blind_refuted"
   ],
   "note": "Arrays are copied and compared as specified; the target list is neither copied nor compared, nor are extents (refuted theorems)."
  },
  {
   "property": "C54",
   "status": "partial",
   "theorems": [
    "c54_state_partial",
    "c54_written",
    "c54_internal_partial",
    "c54_tables_written",
    "c54_tables_partial",
    "c54_other_groups",
    "c54_overwrite",
    "c54_tables_refuted",
    "c54_one_energy_both_refuted",
    "c54_unsaved_tables_refuted",
    "c54_reused_object_refuted",
    "c54_content_partial",
    "c54_scrambled_tables_refuted",
    "c54_basis_refuted"
   ],
   "note": "Without interactions: every complete state of up to 99 flavours is restored in type, energies, mixing, switches, clock, body, track, offset and density matrices, and shows the same contents when used in the same basis; reading other groups is not disturbed. With interactions: the state and padded tables come back if the writer's read past the extents of dNdE_GR yields anything but the number of energies, and with tables handed over (ReadStateHDF5Internal). Refuted: that read is undefined behaviour (nuSQuIDS.cpp:1945); if it yields the number of energies the tables are scrambled; one energy with both types cannot be read; interactions without saved tables cannot be read; reading a single-energy state into a smaller initialised object writes out of bounds; the basis of the state is not stored. User data hooks and files older than version 1.1 are not modelled."
  },
  {
   "property": "C55",
   "status": "proved",
   "theorems": [
    "c55_flavor_readback",
    "c55_mass_readback",
    "c55_total_conserved",
    "c55_total_of_initial",
    "c55_vacuum_probability",
    "c55_probabilities",
    "c55_vacuum_bounds"
   ],
   "note": "For every mixing made of rotations, in any order; total conserved by every solution of the equation without interactions; textbook vacuum probabilities. SQuIDS taken as documented."
  },
  {
   "property": "C56",
   "status": "partial",
   "theorems": [
    "c56_every_schedule",
    "c56_no_deadlock",
    "c56_terminates",
    "c56_nodes",
    "c56_same_nodes",
    "c56_thread_count",
    "c56_failing_refuted"
   ],
   "note": "Any splitting of a node's EvolveState into steps, any number of workers >= 1, any interleaving including spurious wakeups; deadlock freedom and termination included. Nodes share tables and Earth model read-only. Refuted when some node's evolution throws: then serial and threaded runs leave different nodes."
  },
  {
   "property": "C57",
   "status": "partial",
   "theorems": [
    "c57_serial",
    "c57_parallel_refuted",
    "c57_parallel_silent"
   ],
   "note": "Holds with one thread; refuted with several (exceptions stay in futures that are only waited for)."
  },
  {
   "property": "C58",
   "status": "partial",
   "theorems": [
    "c58_value",
    "c58_between",
    "c58_refused",
    "c58_safe",
    "c58_node",
    "c58_total",
    "c58_nonnegative",
    "c58_vacuum_exact",
    "c58_log_energy_refuted",
    "c58_unequal_travel_refuted",
    "c58_one_angle_refuted",
    "c58_one_energy_refuted",
    "c58_index_refuted",
    "c58_decreasing_refuted"
   ],
   "note": "For ensembles with at least two zenith nodes and two energies, sorted, whose nodes' states have the right extents: cells, weights, bounds, totals, refusals and absence of undefined behaviour are proved, and the value at a node for nodes that travelled the same part of their trajectories. Doubles are reals; the averaging evolution of SQuIDS is an arbitrary function; refuted for one zenith node, one energy, indices of type and flavour, decreasing grids, unequal travel and the documented logarithm of the energy."
  },
  {
   "property": "C59",
   "status": "partial",
   "theorems": [
    "c59_names",
    "c59_written",
    "c59_spaced",
    "c59_restored_partial",
    "c59_tables_partial",
    "c59_collision_refuted",
    "c59_no_overwrite_refuted",
    "c59_failed_read_refuted",
    "c59_close_angles_refuted"
   ],
   "note": "Names differ exactly if sign or value to six decimals do, so for angles more than a millionth apart; such ensembles can be written (the first node without interactions or with tables of its own extents), and every node, the angles, energies and shared tables come back, under the conditions of C54. Refuted: closer angles share a name and make writing fail; overwrite = false always fails; a read that fails part way leaves an object that claims a state but has fresh nodes. What a failed write leaves on disk is not modelled."
  },
  {
   "property": "C60",
   "status": "partial",
   "theorems": [
    "c60_threads",
    "c60_requested",
    "c60_from_file_refuted"
   ],
   "note": "Holds for every constructed ensemble and history; refuted for ensembles constructed from a file (member never initialised)."
  },
  {
   "property": "C61",
   "status": "partial",
   "theorems": [
    "c61_never_allowed_partial",
    "c61_sticky_refuted"
   ],
   "note": "Refuted: the shortcut switches numerics off for good. Partial: right as long as it was never allowed."
  },
  {
   "property": "C62",
   "status": "partial",
   "theorems": [
    "c62_settings",
    "c62_applied",
    "c62_medium",
    "c62_cross_sections",
    "c62_step",
    "c62_reported",
    "c62_earth_tracks_refuted",
    "c62_step_at_refuted",
    "c62_default_library_refuted"
   ],
   "note": "All-or-nothing and agreement of all nodes for every history of calls on the ensemble. Refuted: default library reaches node 0 only; Set_EarthModel keeps trajectories; Set_h with index."
  },
  {
   "property": "C63",
   "status": "partial",
   "theorems": [
    "c63_unchanged_partial",
    "c63_evolve_incomplete_partial",
    "c63_interactions_refuted"
   ],
   "note": "All calls but evolution and interaction initialisation are proved. Refuted for the latter: a failed initialisation leaves empty tables that the next one takes for complete."
  },
  {
   "property": "C64",
   "status": "partial",
   "theorems": [
    "c64_sun",
    "c64_chord",
    "c64_vector_sun_refuted"
   ],
   "note": "Chords of a SunASnu read from a file, and the Sun. Refuted: a SunASnu made from vectors is larger than its trajectories."
  },
  {
   "property": "C65",
   "status": "proved",
   "theorems": [
    "c65_absorption"
   ],
   "note": "Whatever the buffers held before."
  },
  {
   "property": "C66",
   "status": "partial",
   "theorems": [
    "c66_settled_partial",
    "c66_late_refuted"
   ],
   "note": "Refuted: the Hamiltonian is only rebuilt when a state is set. Partial: right if the switch was not touched since."
  },
  {
   "property": "C67",
   "status": "partial",
   "theorems": [
    "c67_new_refuted",
    "c67_interactions_refuted",
    "c67_answered_partial"
   ],
   "note": "Refuted for new objects and for interactions not yet initialised. Partial: answered if medium, trajectory and energy are given and neither interactions nor sources are on."
  },
  {
   "property": "C68",
   "status": "proved",
   "theorems": [
    "c68_content_rate",
    "c68_total_rate",
    "c68_no_oscillations"
   ],
   "note": "Matrix level, SQuIDS equation as documented. The gain factors are those of C40, C41, C65."
  },
  {
   "property": "C69",
   "status": "proved",
   "theorems": [
    "c69_same_content",
    "c69_shortcut_solves"
   ],
   "note": "For every solution; existence and uniqueness of solutions and the numerical error of the solver are not part of it."
  },
  {
   "property": "C70",
   "status": "partial",
   "theorems": [
    "c70_effective_length",
    "c70_layers_partial",
    "c70_layers_refuted",
    "c70_matter_layers",
    "c70_shortcut_as_integrated",
    "c70_divided",
    "c70_layers_total",
    "c70_answer_exists"
   ],
   "note": "Layers with the shortcut in matter and vacuum (c70_matter_layers and following, given the contracts exact and exact_const of SQuIDS). Integrated layers: c94_reading. Refuted for mixed layers: only the layers with the shortcut count."
  },
  {
   "property": "C71",
   "status": "proved",
   "theorems": [
    "c71_cpt"
   ],
   "note": "Vacuum, through the textbook formula of C55."
  },
  {
   "property": "C72",
   "status": "partial",
   "theorems": [
    "c72_rounding",
    "c72_internal_aligned",
    "c72_read_aligned_partial",
    "c72_read_aligned_refuted"
   ],
   "note": "Holds for computed and shared tables; after ReadStateHDF5 exactly when the number of energies is a multiple of four. The start of the array itself is C11."
  },
  {
   "property": "C73",
   "status": "partial",
   "theorems": [
    "c73_new_object_refuted",
    "c73_set_state",
    "c73_extents",
    "c73_stale_state",
    "c73_invalidated",
    "c73_moved_from"
   ],
   "note": "State setting all-or-nothing; stale states refused with one thread (several threads: see C57). Refuted: on a new ensemble the check itself reads an uninitialised flag."
  },
  {
   "property": "C74",
   "status": "proved",
   "theorems": [
    "c74_shared"
   ],
   "note": "After the tables have been shared out, whatever the evolution of the nodes then does."
  },
  {
   "property": "C75",
   "status": "partial",
   "theorems": [
    "c75_targets",
    "c75_totals",
    "c75_spectra",
    "c75_frame",
    "c75_tau",
    "c75_glashow_partial",
    "c75_no_electrons",
    "c75_defined",
    "c75_succeeds",
    "c75_row_sum",
    "c75_resonance_nan_refuted",
    "c75_sterile_infinite_refuted",
    "c75_fifth_flavour_refuted",
    "c75_number_refuted"
   ],
   "note": "Targets, totals, spectra, frame, decay spectra, definedness and success hold for every library; exact row sums. Refuted: number of outgoing neutrinos, NaN in Glashow spectra, unchecked sterile rows, cast of the fifth flavour. Cross sections are reals, infinities or NaN; no rounding."
  },
  {
   "property": "C76",
   "status": "partial",
   "theorems": [
    "c76_contents_partial",
    "c76_not_negative_partial",
    "c76_coherences_partial",
    "c76_again_partial",
    "c76_total_partial",
    "c76_filter",
    "c76_filter_refuted",
    "c76_stale_refuted",
    "c76_between_refuted"
   ],
   "note": "Holds while the stored projectors are those the content is read with (interaction basis: last PreDerive at the present clock and no filter; mass basis: still the initial ones). That SQuIDS ends an evolution with PreDerive at the final clock and that estate is state outside an evolution are external. Refuted with the filter on, with projectors left from another basis, and between nodes."
  },
  {
   "property": "C77",
   "status": "partial",
   "theorems": [
    "c77_rates_read_back",
    "c77_standard_order",
    "c77_standard_three",
    "c77_randomize_state",
    "c77_neutrino_loss",
    "c77_contents",
    "c77_phase_rates",
    "c77_randomize_phase_refuted",
    "c77_picture",
    "c77_phase_picture_refuted",
    "c77_signs_refuted",
    "c77_acts",
    "c77_without_interactions_refuted",
    "c77_constant_refuted"
   ],
   "note": "The rates set are read back, the standard order for three flavours is right up to sign, RandomizeState and NeutrinoLoss do what they say for every state, and a damping with equal rates for both components of a coherence does not depend on the picture. Refuted: RandomizePhase, signs of the generators, and whether the damping acts without interactions or at constant density. The layout of SQuIDS's generators is an assumption of the model (the library is not in the repository), taken with any normalisation."
  },
  {
   "property": "C78",
   "status": "partial",
   "theorems": [
    "c78_term_partial",
    "c78_constructed",
    "c78_electron_partial",
    "c78_antineutrino_refuted",
    "c78_stale_refuted",
    "c78_mass_basis_refuted",
    "c78_read_refuted",
    "c78_read_outside_refuted",
    "c78_read_and_set",
    "c78_opposite",
    "c78_parameters"
   ],
   "note": "Proved for neutrinos, and antineutrinos without CP phases, in the interaction basis after Set_mutau or the constructor. Refuted: antineutrinos with a CP phase, stale operator after setting an angle, the mass basis, and reading from a file."
  },
  {
   "property": "C79",
   "status": "partial",
   "theorems": [
    "c79_history",
    "c79_term_partial",
    "c79_antineutrino_refuted",
    "c79_mass_basis_refuted",
    "c79_file_refuted",
    "c79_file",
    "c79_dump",
    "c79_dump_refuted"
   ],
   "note": "The history invariant holds for every list of calls and the term is right for neutrinos and for antineutrinos without CP phases in the interaction basis. Refuted: antineutrinos with a CP phase, the mass basis, the file round trip, and the printed contents of antineutrinos."
  },
  {
   "property": "C80",
   "status": "partial",
   "theorems": [
    "c80_shape",
    "c80_no_energy",
    "c80_other_type",
    "c80_flavor",
    "c80_flavor_averaged",
    "c80_mass_partial",
    "c80_mass_averaged",
    "c80_node",
    "c80_one",
    "c80_one_full",
    "c80_modes",
    "c80_flavor_outside_refuted",
    "c80_node_outside_refuted",
    "c80_kind_outside_refuted",
    "c80_not_a_number_refuted",
    "c80_mass_range_refuted",
    "c80_flags_refuted",
    "c80_one_node_refuted",
    "c80_unsorted_refuted"
   ],
   "note": "Masses in the mass basis are not checked against the grid (c80_mass_range_refuted), and flavours, nodes, a third kind, not-a-number energies and flags for one energy are not all refused (refuted theorems). SQuIDS's expectation values are parameters."
  },
  {
   "property": "C81",
   "status": "partial",
   "theorems": [
    "c81_from_numpy",
    "c81_refused",
    "c81_round_trip",
    "c81_byte_order_refuted",
    "c81_empty_refuted",
    "c81_sequence",
    "c81_range",
    "c81_list_round_trip",
    "c81_generator",
    "c81_iterator_refuted"
   ],
   "note": "Arrays in the other byte order, arrays without elements and iterators with a length are not handled as claimed (refuted theorems). numpy and boost.python are taken by their contracts."
  },
  {
   "property": "C82",
   "status": "partial",
   "theorems": [
    "c82_nodes",
    "c82_inside",
    "c82_uniform",
    "c82_composition",
    "c82_mod_last",
    "c82_mod_file_refuted",
    "c82_rows_refuted",
    "c82_saved_partial",
    "c82_saved_refuted",
    "c82_linear_integral",
    "c82_linear_share"
   ],
   "note": "EarthMod weights, locality, composition, Mod histories and the linear cross sections proved for all tables. Saving is right only for tables with as many rows as the PREM (c82_saved_partial); refuted otherwise (c82_saved_refuted), as are Mod for other files (c82_mod_file_refuted) and rows beyond 201 (c82_rows_refuted). The files themselves are TableModel's."
  },
  {
   "property": "C83",
   "status": "partial",
   "theorems": [
    "c83_current",
    "c83_last_call",
    "c83_reset",
    "c83_emission",
    "c83_conserved",
    "c83_flavour",
    "c83_stale_refuted",
    "c83_reread_refuted",
    "c83_shortcut_refuted",
    "c83_no_flavour_refuted"
   ],
   "note": null
  },
  {
   "property": "C84",
   "status": "partial",
   "theorems": [
    "c84_names_partial",
    "c84_names_agree",
    "c84_height_refuted",
    "c84_height_member",
    "c84_overloads",
    "c84_initial_state",
    "c84_steppers",
    "c84_unknown_stepper",
    "c84_bools",
    "c84_bool_error_refuted",
    "c84_bool_missing_refuted",
    "c84_mask_refuted"
   ],
   "note": "Names: all classes outside SQuIDS; two methods of the ensemble are misspelt (Set_PositivyConstrain, Set_PositivyConstrainStep) and reach the right member. Refuted: setting the height of the atmosphere, errors in sequences of bool, flags of averaged oscillations. boost.python is taken by its contract."
  },
  {
   "property": "C85",
   "status": "proved",
   "theorems": [
    "c85_umuc",
    "c85_ucmu",
    "c85_inverse",
    "c85_invariants",
    "c85_itself",
    "c85_sizes",
    "c85_conjugate",
    "c85_conjugate_twice"
   ],
   "note": "All square sizes and all other shapes refused; gsl_matrix_complex_print is not modelled. GSL functions by their manual."
  },
  {
   "property": "C86",
   "status": "partial",
   "theorems": [
    "c86_interpolation",
    "c86_radius",
    "c86_flux",
    "c86_product",
    "c86_line_energy_refuted",
    "c86_edges_refuted",
    "c86_columns",
    "c86_radii_partial",
    "c86_first_radius_refuted",
    "c86_two_suns_refuted",
    "c86_hamiltonian",
    "c86_probability_range",
    "c86_probability_unique",
    "c86_vacuum_partial",
    "c86_sort",
    "c86_inverted_refuted",
    "c86_average",
    "c86_no_flux_refuted",
    "c86_no_model_refuted",
    "c86_negative_energy_refuted",
    "c86_lines"
   ],
   "note": "Fluxes, interpolation, probability range, uniqueness and average proved for all tables and mixings; the vacuum value only for growing masses (c86_vacuum_partial), the radii except the first (c86_radii_partial). Refuted: first radius, edges, lines away from their energy, negative energies, inverted ordering, no flux, no model. The quadrature is required to keep inequalities."
  },
  {
   "property": "C87",
   "status": "partial",
   "theorems": [
    "c87_full_average",
    "c87_no_average",
    "c87_total",
    "c87_mass",
    "c87_probabilities",
    "c87_between",
    "c87_time_average",
    "c87_mass_basis_refuted",
    "c87_partial_average_refuted"
   ],
   "note": "Refuted parts: the scale is ignored in the mass basis; partial averaging can give negative contents. SQuIDS' averaging is taken by its documented contract; the flags are not modelled."
  },
  {
   "property": "C88",
   "status": "partial",
   "theorems": [
    "c88_basis",
    "c88_orthogonal",
    "c88_traceless",
    "c88_components",
    "c88_print_refuted",
    "c88_print_one",
    "c88_print_hamiltonians_refuted",
    "c88_print_state_refuted",
    "c88_print_status_refuted",
    "c88_get_state_refuted",
    "c88_get_states",
    "c88_other_energies_refuted",
    "c88_plot_inside",
    "c88_ratio_inside",
    "c88_ratio_disjoint_refuted"
   ],
   "note": "Refuted parts: all printing functions, GetState with one argument, GetStates at other energies, ratio plots of disjoint grids. numpy's casting rule and arange by contract; drawing and the metaclass injection are not modelled."
  },
  {
   "property": "C89",
   "status": "partial",
   "theorems": [
    "c89_plain",
    "c89_earth_sun",
    "c89_atm",
    "c89_other_tables_refuted",
    "c89_height_refuted",
    "c89_reversed_refuted",
    "c89_sunasnu_refuted",
    "c89_short_refuted",
    "c89_unknown_refuted",
    "c89_tau",
    "c89_tau_size_refuted"
   ],
   "note": "Vacuum, constant and tabulated bodies, paths through the Earth and the Sun and default atmospheric paths come back; other tables, heights, reversed atmospheric paths, paths past the centre of the Sun, short lists, unknown numbers and tau tables of another size are refuted."
  },
  {
   "property": "C90",
   "status": "partial",
   "theorems": [
    "c90_additive",
    "c90_unique",
    "c90_same_readout",
    "c90_combination",
    "c90_superposition",
    "c90_purity",
    "c90_top",
    "c90_negative_refuted"
   ],
   "note": "Uniqueness for every state; superposition where the tau fluxes of the states are positive or zero together (always without tau regeneration); refuted for negative tau fluxes. Exact solutions of the equation; the numerical solver of SQuIDS is external."
  },
  {
   "property": "C91",
   "status": "proved",
   "theorems": [
    "c91_balance",
    "c91_budget",
    "c91_positive",
    "c91_contents",
    "c91_hermitian",
    "c91_taus",
    "c91_superposition",
    "c91_monotone",
    "c91_number",
    "c91_bins",
    "c91_start",
    "c91_projectors"
   ],
   "note": "For exact solutions of the equation of all nodes; doubles are reals and the numerical integrator is outside. With all secondaries on (neutral currents, tau regeneration, Glashow) the weighed total changes exactly by what interactions drain (c91_balance) and never grows if no interaction gives back more than went in (c91_budget)."
  },
  {
   "property": "C92",
   "status": "proved",
   "theorems": [
    "c92_determined",
    "c92_fluxes_add",
    "c92_rows",
    "c92_bounds",
    "c92_columns",
    "c92_equal_fluxes",
    "c92_reversal",
    "c92_reciprocity",
    "c92_mirror",
    "c92_scaling",
    "c92_shared_potential"
   ],
   "note": "For exact solutions; existence of solutions is shown only in the case beside the theorems (constant matter, maximal mixing). Doubles are reals."
  },
  {
   "property": "C93",
   "status": "proved",
   "theorems": [
    "c93_position",
    "c93_clock",
    "c93_determined",
    "c93_cut",
    "c93_cut_exists",
    "c93_shift",
    "c93_positive"
   ],
   "note": "For exact solutions on each leg, tracks that do not run backwards, no positivity steps and no constant-density shortcut (C47, C70 show what happens then)."
  },
  {
   "property": "C94",
   "status": "partial",
   "theorems": [
    "c94_reading",
    "c94_mass_reading",
    "c94_same_answer",
    "c94_stop",
    "c94_total",
    "c94_bounds",
    "c94_start",
    "c94_vacuum",
    "c94_basis_refuted"
   ],
   "note": "C94 joins the history model (C45-C53) with the matrices (C55, C68, C92): the numbers read are those of the equation for the present settings. Oscillations on, no interactions, sources, positivity or constant-density shortcut; exact solution by SQuIDS is a contract (exact), met by a vacuum instance. Set_Basis after a state was set is refuted (c94_basis_refuted)."
  },
  {
   "property": "C95",
   "status": "proved",
   "theorems": [
    "c95_settled",
    "c95_stop",
    "c95_superposition",
    "c95_reading",
    "c95_same_answer",
    "c95_nonneg",
    "c95_plain"
   ],
   "note": "As C94 with interactions, taus, resonance and sources; parameters: tables, emission, SQuIDS vectors; exact solution by SQuIDS is a contract (exact_all), met by an instance for steady matter without taus (steady_exact). Oscillations on; no positivity enforcement or constant-density shortcut. Changing the basis or parameters after a state was set is outside (see C94)."
  },
  {
   "property": "C96",
   "status": "proved",
   "theorems": [
    "c96_nodes",
    "c96_reading",
    "c96_settled",
    "c96_grid",
    "c96_nonneg",
    "c96_as_alone"
   ],
   "note": "Nodes of the ensemble are the objects of C95, so its contract (exact_all) and limits apply: oscillations on, no positivity enforcement or constant-density shortcut. With several threads no node may fail unnoticed (C57). Without the random production height; trajectories of positive length; grids of two or more increasing values for the interpolation."
  },
  {
   "property": "C97",
   "status": "partial",
   "theorems": [
    "c97_line",
    "c97_advance",
    "c97_ends",
    "c97_counter",
    "c97_off",
    "c97_call",
    "c97_evolution_partial",
    "c97_again_refuted",
    "c97_zero_length_refuted",
    "c97_overflow_refuted"
   ],
   "note": "The bar passes 100 % on a second evolution along the same trajectory (c97_again_refuted), a trajectory of no length makes it undefined (c97_zero_length_refuted), and its counter overflows an int even when the bar is off (c97_overflow_refuted). c97_evolution_partial: without positivity enforcement; the other theorems are unrestricted."
  },
  {
   "property": "C98",
   "status": "partial",
   "theorems": [
    "c98_tools",
    "c98_save",
    "c98_save_returned",
    "c98_save_all",
    "c98_load",
    "c98_load_all",
    "c98_tables",
    "c98_session",
    "c98_reusable",
    "c98_left",
    "c98_types_left_refuted",
    "c98_serialize_throws_refuted",
    "c98_hook_throws_refuted",
    "c98_unreadable_refuted",
    "c98_rank_refuted",
    "c98_wrong_close"
   ],
   "note": "Identifiers only; values are in C49-C59. The library is an oracle; H5LT calls are taken to close what they open. Loads that fail are covered for readers that give back what they take (strict_load); for the others the leak is the refutation."
  },
  {
   "property": "C99",
   "status": "partial",
   "theorems": [
    "c99_constant",
    "c99_constant_refuted",
    "c99_line",
    "c99_atm_line",
    "c99_earth",
    "c99_chord_refuted",
    "c99_table_media",
    "c99_sun_ye",
    "c99_chord_ye",
    "c99_no_place",
    "c99_air",
    "c99_air_thins",
    "c99_total",
    "c99_single",
    "c99_no_data",
    "c99_index",
    "c99_v1",
    "c99_order",
    "c99_search",
    "c99_spline",
    "c99_spline_made",
    "c99_spline_node",
    "c99_last_node_refuted",
    "c99_abscissas_refuted",
    "c99_cell",
    "c99_interpolators",
    "c99_corner",
    "c99_atm",
    "c99_atm_nodes",
    "c99_atm_nan_refuted",
    "c99_energy",
    "c99_energy_nan_refuted",
    "c99_media",
    "c99_air_refuted",
    "c99_air_infinite_refuted",
    "c99_tables",
    "c99_v1_refuted"
   ],
   "note": "All of the statement for numbers; NaN is not refused by the range checks, the last node of a spline is rounded, EarthAtm answers NaN by a number, and a crossing of the centre of the Sun can answer NaN (refuted, with witnesses). Rounding errors of straight lines, of the radius in the Earth and of totals below the table are bounded; those of spline coefficients are not."
  },
  {
   "property": "C100",
   "status": "partial",
   "theorems": [
    "c100_old",
    "c100_new",
    "c100_file",
    "c100_missing",
    "c100_padded",
    "c100_short_refuted",
    "c100_long_refuted",
    "c100_rank_refuted",
    "c100_tau_rank",
    "c100_targets",
    "c100_lep_refuted"
   ],
   "note": "Refuted parts: tables that do not fit are only noticed when the arrays are padded (c100_short_refuted, c100_long_refuted); the rank is not looked at (c100_rank_refuted)."
  },
  {
   "property": "C101",
   "status": "partial",
   "theorems": [
    "c101_resource",
    "c101_empty_variable_refuted",
    "c101_layout",
    "c101_range",
    "c101_range_common",
    "c101_write_read",
    "c101_first_table_refuted",
    "c101_left_over_refuted",
    "c101_hdf",
    "c101_v1_write_read",
    "c101_v1_directory_refuted",
    "c101_directory",
    "c101_v1_silent_refuted",
    "c101_unwritable",
    "c101_library"
   ],
   "note": "Refuted parts: the first table of the muon and tau flavours may cover another range (c101_first_table_refuted); text written beside an HDF5 file of the same name or beside common files is not what is read (c101_left_over_refuted); an empty environment variable counts as set (c101_empty_variable_refuted); the old class takes a directory for an HDF5 file and does not notice that it cannot write (c101_v1_directory_refuted, c101_v1_silent_refuted). Differentials come back from text as C33 says."
  },
  {
   "property": "C102",
   "status": "proved",
   "theorems": [
    "c102_tables",
    "c102_default",
    "c102_resonance",
    "c102_totals",
    "c102_spectra",
    "c102_beyond",
    "c102_targets"
   ],
   "note": "Composition of C20, C31, C32 and C75 over the reals: no rounding. Bins must be wider than 32 epsilon times their upper energy, as the integration requires."
  },
  {
   "property": "C103",
   "status": "proved",
   "theorems": [
    "c103_attenuation",
    "c103_matter",
    "c103_vacuum",
    "c103_proportional",
    "c103_feeding",
    "c103_feeding_still"
   ],
   "note": "Composition of C35, C65 and C102 over the reals: no rounding. Separate protons and neutrons; that the arrays written by GetCrossSections are those read by UpdateInteractions is the hypothesis `reads`."
  },
  {
   "property": "C104",
   "status": "partial",
   "theorems": [
    "c104_bound",
    "c104_created_refuted"
   ],
   "note": "The claim is refuted by a grid of three nodes; `c104_bound` is what holds. Real numbers without rounding, exact averages."
  }
 ]
}