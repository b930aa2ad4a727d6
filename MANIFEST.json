{
 "claims": [
  {
   "property": "C01",
   "status": "proved",
   "theorems": [
    "C01_rows_kept",
    "C01_rows_kept_R"
   ],
   "note": ""
  },
  {
   "property": "C02",
   "status": "proved",
   "theorems": [
    "C02_time_column",
    "C02_time_column_R"
   ],
   "note": ""
  },
  {
   "property": "C03",
   "status": "proved",
   "theorems": [
    "C03_signal_of_sample",
    "C03_signal_of_sample_R"
   ],
   "note": ""
  },
  {
   "property": "C04",
   "status": "proved",
   "theorems": [
    "C04_process_count",
    "C04_process_count_R"
   ],
   "note": ""
  },
  {
   "property": "C05",
   "status": "proved",
   "theorems": [
    "C05_call_again",
    "C05_call_again_R",
    "C05_only_angles_matter"
   ],
   "note": ""
  },
  {
   "property": "C06",
   "status": "proved",
   "theorems": [
    "C06_partial_row_lost",
    "C06_partial_row_lost_R"
   ],
   "note": ""
  },
  {
   "property": "C07",
   "status": "proved",
   "theorems": [
    "C07_illegal_theta_throws",
    "C07_illegal_theta_iff_R",
    "C07_every_schedule"
   ],
   "note": "C07_every_schedule: for processes running at their own pace"
  },
  {
   "property": "C08",
   "status": "proved",
   "theorems": [
    "C08_others_stranded_refuted",
    "C08_every_schedule_refuted"
   ],
   "note": "violated by the code: proved that the other processes wait for ever, in the whole-communicator model and for every schedule of the processes"
  },
  {
   "property": "C09",
   "status": "proved",
   "theorems": [
    "C09_all_enter_nonempty_R",
    "C09_all_enter_refuted",
    "C09_outcomes_R",
    "C09_every_schedule_refuted_R",
    "C09_every_schedule_refuted_F"
   ],
   "note": "violated by the code for processes without samples: refuted with a witness; calls in which every process has samples proved; C09_outcomes_R (exact) and C59_outcomes_F (doubles) list all outcomes; C09_every_schedule_refuted_*: in every stuck call no schedule lets any process return, and mismatched collectives are reached"
  },
  {
   "property": "C10",
   "status": "proved",
   "theorems": [
    "C10_hit_map",
    "C10_bin_R",
    "C10_equator_refuted"
   ],
   "note": "violated at theta = pi/2: refuted; positive part proved"
  },
  {
   "property": "C11",
   "status": "proved",
   "theorems": [
    "C11_boundaries_iff_R",
    "C11_boundaries_iff_F",
    "C11_boundaries_sufficient_R",
    "C11_boundaries_refuted"
   ],
   "note": "violated: refuted; the exact condition proved in exact arithmetic and in IEEE doubles, and a simple sufficient condition"
  },
  {
   "property": "C12",
   "status": "proved",
   "theorems": [
    "C12_boundaries_ordered",
    "C12_boundaries_ordered_R",
    "C12_boundaries_ordered_F"
   ],
   "note": "_F: in IEEE doubles, with every rounding of the bin width and of the boundary products"
  },
  {
   "property": "C13",
   "status": "proved",
   "theorems": [
    "C13_routing",
    "C13_owner_zone_R",
    "C13_owner_zone_F",
    "C13_counts_agree"
   ],
   "note": "_F: in IEEE doubles, the owner's zone as the code's double boundaries delimit it"
  },
  {
   "property": "C14",
   "status": "proved",
   "theorems": [
    "C14_calibration",
    "C14_calibration_R"
   ],
   "note": ""
  },
  {
   "property": "C15",
   "status": "proved",
   "theorems": [
    "C15_weights_reproduce_polynomials",
    "C15_weights_sum",
    "C15_weights_at_node",
    "C15_weights_F"
   ],
   "note": "_F: in IEEE doubles, for orders up to 100 and positions in the middle cell, with the rounding error stated"
  },
  {
   "property": "C16",
   "status": "proved",
   "theorems": [
    "C16_stencil_windows",
    "C16_each_ring_once",
    "C16_sorted_rows",
    "C16_sorted_rows_F"
   ],
   "note": "sorted_rows: set-up succeeds and the windows cover exactly the stencils, inside the ring table; _F: in IEEE doubles for lmax < 2^20 and order <= 2 lmax + 1"
  },
  {
   "property": "C17",
   "status": "proved",
   "theorems": [
    "C17_stencil_centred",
    "C17_stencil_centred_F"
   ],
   "note": "_F: in IEEE doubles for lmax < 2^20, order <= 2 lmax + 1 and longitudes up to 2^800, co-latitude brackets up to multiples of 2^-52"
  },
  {
   "property": "C18",
   "status": "proved",
   "theorems": [
    "C18_longitude_wrap",
    "C18_violated_large_order"
   ],
   "note": "proved for order <= 2 lmax + 1; refuted for every larger order (out-of-bounds read for some longitude)"
  },
  {
   "property": "C19",
   "status": "proved",
   "theorems": [
    "C19_periodicity"
   ],
   "note": "exact arithmetic; lifted to whole calls of convolve"
  },
  {
   "property": "C20",
   "status": "proved",
   "theorems": [
    "C20_signal_formula"
   ],
   "note": "exact arithmetic; lifted to whole calls of convolve"
  },
  {
   "property": "C21",
   "status": "proved",
   "theorems": [
    "C21_dft",
    "C21_all_lengths",
    "C21_convolver",
    "C21_refuted_long"
   ],
   "note": "libfftpack modelled pass by pass (radix 2-6, generic radix, factorization, twiddle table, Bluestein, plans): every transform of every history equals the Fourier sum over the reals with exact constants, for both outcomes of the cost estimate; C21_convolver discharges the FFT assumption of C22 etc.; C21_refuted_long: length 3^14 overruns the factor area (outside the range a convolver uses)."
  },
  {
   "property": "C22",
   "status": "proved",
   "theorems": [
    "C22_cube_rings"
   ],
   "note": "exact arithmetic; the FFT routine enters through the hypothesis that it computes the DFT of length 2 lmax + 1 (property C21)"
  },
  {
   "property": "C23",
   "status": "proved",
   "theorems": [
    "C23_rings_delivered"
   ],
   "note": ""
  },
  {
   "property": "C24",
   "status": "proved",
   "theorems": [
    "C24_owners_balanced"
   ],
   "note": ""
  },
  {
   "property": "C25",
   "status": "proved",
   "theorems": [
    "C25_zero_polarization"
   ],
   "note": "exact arithmetic; whole calls of convolve"
  },
  {
   "property": "C26",
   "status": "proved",
   "theorems": [
    "C26_linear_in_sky",
    "C26_linear_in_beam"
   ],
   "note": "exact arithmetic; whole calls of convolve"
  },
  {
   "property": "C27",
   "status": "proved",
   "theorems": [
    "C27_south_symmetry"
   ],
   "note": "exact arithmetic"
  },
  {
   "property": "C28",
   "status": "proved",
   "theorems": [
    "C28_threads",
    "C28_tod_threads",
    "C28_finish_threads",
    "C28_call_threads"
   ],
   "note": "all four parallel regions: the two that build the data cube (exact arithmetic), todAnnulus, and the sample loop (any arithmetic); any assignment of iterations to threads, any team size, any interleaving of single reads and writes"
  },
  {
   "property": "C29",
   "status": "proved",
   "theorems": [
    "C29_history_independent"
   ],
   "note": "exact arithmetic; values computed by a generator do not depend on the earlier calls"
  },
  {
   "property": "C30",
   "status": "proved",
   "theorems": [
    "C30_wigner_elements",
    "is_wigner_unique"
   ],
   "note": "exact arithmetic (scaled numbers modelled exactly with their scale indices); angle moved by at most 1e-15 at 0 and pi as the code does"
  },
  {
   "property": "C31",
   "status": "proved",
   "theorems": [
    "C31_storage_bijection",
    "C31_violated_large_lmax"
   ],
   "note": "lmax <= 46339 is the exact limit: beyond it (lmax = mmax) the int count overflows, proved as C31_violated_large_lmax"
  },
  {
   "property": "C32",
   "status": "proved",
   "theorems": [
    "C32_beam_read",
    "C32_beam_rejected",
    "C32_violated_mmax",
    "C32_violated_default_lmax",
    "C32_every_schedule",
    "C32_rejected_every_schedule"
   ],
   "note": "any number of processes; the reader's result characterised, requests beyond the file refused on every process; the same for every interleaving of the processes' steps (C32_*_every_schedule); violated by the code for explicit mmax (wrong order; whole beam lost with default lmax): both refutations proved for all files and requests"
  },
  {
   "property": "C33",
   "status": "proved",
   "theorems": [
    "C33_normalize",
    "C33_normalize_F"
   ],
   "note": "exact arithmetic; rounding errors of double and float"
  },
  {
   "property": "C34",
   "status": "proved",
   "theorems": [
    "C34_violated_stale_flag"
   ],
   "note": "violated by the code: proved for every file"
  },
  {
   "property": "C35",
   "status": "proved",
   "theorems": [
    "C35_remove_monopole",
    "C35_remove_dipole"
   ],
   "note": "any arithmetic"
  },
  {
   "property": "C36",
   "status": "proved",
   "theorems": [
    "C36_accepts",
    "C36_explicit",
    "C36_default_equal",
    "C36_violated_default_lmax",
    "C36_violated_mmax",
    "C36_violated_lmax0"
   ],
   "note": "holds for explicit orders with 0 < lmax, mmax <= lmax; violated otherwise: refuted for all such inputs"
  },
  {
   "property": "C37",
   "status": "proved",
   "theorems": [
    "C37_set_sky",
    "C37_set_beam",
    "C37_violated_sky",
    "C37_violated_beam"
   ],
   "note": "positive part for replacements of sufficient order; violated otherwise: refuted"
  },
  {
   "property": "C38",
   "status": "proved",
   "theorems": [
    "C38_escapes_only",
    "C38_beam_read_code",
    "C38_sky_read_code",
    "C38_data_null",
    "C38_violated_convolver_new",
    "C38_convolver_new_null",
    "C38_violated_convolve"
   ],
   "note": "positive: only the convolver constructor, convolve and constructors out of memory can throw; refuted for those"
  },
  {
   "property": "C39",
   "status": "proved",
   "theorems": [
    "C39_violated_convolver",
    "C39_violated_beam_sky",
    "C39_read_failure",
    "C39_sky_read_failure"
   ],
   "note": "violated by the code: NULL passes for a constructed object (ctypes gives None, None == 0 is False); failing reads are detected"
  },
  {
   "property": "C40",
   "status": "proved",
   "theorems": [
    "C40_reader",
    "C40_reader_rejects",
    "C40_round_trip",
    "C40_identity",
    "C40_identity_R",
    "C40_identity_F"
   ],
   "note": "for any arithmetic with a correct isqrt; isqrt is proved correct in exact arithmetic and in IEEE doubles"
  },
  {
   "property": "C41",
   "status": "proved",
   "theorems": [
    "C41_smoothing",
    "C41_inverse",
    "C41_smoothing_pol",
    "C41_inverse_pol",
    "C41_sky_read",
    "C41_sky_read_any",
    "C41_sky_read_F",
    "C41_violated_overflow",
    "C41_sky_rejected",
    "C41_every_schedule",
    "C41_rejected_every_schedule"
   ],
   "note": "C41_sky_read and C41_sky_rejected cover the reader on any number of processes, the *_every_schedule theorems every interleaving of the processes' steps; _F: rounding errors, for an exp accurate to 2^-50 on [-70,70]"
  },
  {
   "property": "C42",
   "status": "proved",
   "theorems": [
    "C42_row_sort",
    "C42_bad_column",
    "C42_two_arrays",
    "C42_two_arrays_sizes"
   ],
   "note": "any arithmetic whose <= is a total preorder on the keys; any correct std::sort"
  },
  {
   "property": "C43",
   "status": "proved",
   "theorems": [
    "C43_fmodulo",
    "C43_imodulo",
    "C43_fmodulo_F"
   ],
   "note": "_F: in IEEE doubles"
  },
  {
   "property": "C44",
   "status": "proved",
   "theorems": [
    "C44_shares"
   ],
   "note": ""
  },
  {
   "property": "C45",
   "status": "proved",
   "theorems": [
    "C45_chunks",
    "C45_wraps_refuted"
   ],
   "note": "wrap-around refuted with a witness"
  },
  {
   "property": "C46",
   "status": "proved",
   "theorems": [
    "C46_ilog2"
   ],
   "note": ""
  },
  {
   "property": "C47",
   "status": "proved",
   "theorems": [
    "C47_first_prepare_overflows"
   ],
   "note": "violation proved for every argument of the first prepare()"
  },
  {
   "property": "C48",
   "status": "proved",
   "theorems": [
    "C48_end_to_end"
   ],
   "note": "exact arithmetic; composition of C20, C22, C23, C30 for whole calls of convolve"
  },
  {
   "property": "C49",
   "status": "proved",
   "theorems": [
    "C49_violated_at_pole"
   ],
   "note": "refutation: the term l = m = mb = lmax is dropped on the pole ring although its Wigner element is 1 up to the pole offset"
  },
  {
   "property": "C51",
   "status": "proved",
   "theorems": [
    "C51_beam_open_failure",
    "C51_sky_open_failure",
    "C51_beam_every_schedule_refuted",
    "C51_sky_every_schedule_refuted",
    "C51_beam_coefs_every_schedule_refuted",
    "C51_sky_coefs_every_schedule_refuted"
   ],
   "note": "violated by the code: the other processes wait for ever, whatever the schedule, when the file cannot be opened and when its coefficients cannot be read"
  },
  {
   "property": "C50",
   "status": "proved",
   "theorems": [
    "C50_num_alms",
    "C50_get_data",
    "C50_set_data",
    "C50_sky_get_data",
    "C50_sky_set_data",
    "C50_write_back",
    "C50_wrong_size",
    "C50_sky_wrong_size",
    "C50_violated_not_atomic",
    "C50_violated_stale_flag"
   ],
   "note": "generic in the arithmetic; values are rounded to float when they are written"
  },
  {
   "property": "C52",
   "status": "proved",
   "theorems": [
    "C52_no_dangling",
    "C52_reached_safe",
    "C52_violated_python"
   ],
   "note": "one process; the Python part is refuted"
  },
  {
   "property": "C53",
   "status": "proved",
   "theorems": [
    "C53_c_round_trip",
    "C53_nul",
    "C53_python_round_trip",
    "C53_violated_long_name"
   ],
   "note": "names of 1024 bytes or more: refuted"
  },
  {
   "property": "C54",
   "status": "proved",
   "theorems": [
    "C54_violated_sky",
    "C54_violated_beam"
   ],
   "note": "violated by the code: refuted"
  },
  {
   "property": "C55",
   "status": "proved",
   "theorems": [
    "C55_valid",
    "C55_stable",
    "C55_dangling"
   ],
   "note": "one process"
  },
  {
   "property": "C56",
   "status": "proved",
   "theorems": [
    "C56_violated_failed_alloc"
   ],
   "note": "violated by the code: refuted for every reachable state"
  },
  {
   "property": "C57",
   "status": "proved",
   "theorems": [
    "C57_illegal_theta_keeps",
    "C57_violated_lost",
    "C57_violated_unpolarized"
   ],
   "note": "positive part for illegal angles; refuted for later exceptions"
  },
  {
   "property": "C58",
   "status": "proved",
   "theorems": [
    "C58_frame",
    "C58_effect",
    "C58_samples"
   ],
   "note": "one process; any arithmetic; specification in CapiSpec.v"
  },
  {
   "property": "C59",
   "status": "proved",
   "theorems": [
    "C59_outcomes_F",
    "C59_returned_rows_F",
    "C01_rows_kept_F",
    "C02_time_column_F",
    "C05_call_again_F",
    "C06_partial_row_lost_F",
    "C07_illegal_theta_iff_F",
    "C09_all_enter_F"
   ],
   "note": "IEEE binary64 through Flocq's BinarySingleNaN; sin and cos arbitrary; the data cube itself is an arbitrary function of the ring co-latitude here"
  },
  {
   "property": "C60",
   "status": "proved",
   "theorems": [
    "C60_bin_F",
    "C60_undefined_F",
    "C60_nan_not_rejected_F",
    "C60_only_boundaries_F"
   ],
   "note": "IEEE binary64; refutes the wish that every legal co-latitude be safe, with the exact set of exceptions"
  },
  {
   "property": "C61",
   "status": "proved",
   "theorems": [
    "C61_returns_F"
   ],
   "note": "IEEE binary64; sufficient condition"
  },
  {
   "property": "C62",
   "status": "proved",
   "theorems": [
    "C62_bitwise_F",
    "C03_signal_of_sample_F"
   ],
   "note": "IEEE binary64, given equal data cube rings for equal ring co-latitudes"
  },
  {
   "property": "C63",
   "status": "proved",
   "theorems": [
    "C63_longitude_F",
    "C63_sample_defined_F",
    "C63_longitude_refuted_F",
    "C63_outcomes_F",
    "C63_call_refuted_F",
    "C63_call_undefined_F"
   ],
   "note": "IEEE binary64; violated for NaN and infinite longitudes: refuted for the value of a sample and for whole calls on any number of processes (all outcomes of such calls are listed)"
  },
  {
   "property": "C64",
   "status": "proved",
   "theorems": [
    "C64_ring_by_ring",
    "C64_threads",
    "C64_safe"
   ],
   "note": "any arithmetic (in particular IEEE doubles); the Wigner generator's long doubles are modelled with the same number type; a ring that would run into undefined behaviour has no execution that completes"
  },
  {
   "property": "C65",
   "status": "proved",
   "theorems": [
    "C65_signal_of_sample_F",
    "C65_bitwise_F"
   ],
   "note": "IEEE binary64 with arbitrary sin, cos, log, exp and any FFT function of the array; C64 for the cube, C62 for the rest"
  },
  {
   "property": "C66",
   "status": "proved",
   "theorems": [
    "C66_table_orders",
    "C66_file_orders",
    "C66_table_orders_R",
    "C66_table_orders_F",
    "C66_file_orders_F"
   ],
   "note": "any arithmetic with an exact isqrt, in particular doubles (isqrt_ok_F)"
  },
  {
   "property": "C67",
   "status": "proved",
   "theorems": [
    "C67_cube_F",
    "C67_rings_F",
    "C67_transfer_F",
    "C67_outcomes_F",
    "C67_returns_F"
   ],
   "note": "IEEE binary64; sin, cos, log, exp, ln2, inv_ln2 with relative error at most 2^-20 (libm_ok; met by correctly rounded functions, rlibm_ok); the generator's long doubles are modelled as doubles"
  },
  {
   "property": "C68",
   "status": "proved",
   "theorems": [
    "C68_fft",
    "C68_plan",
    "C68_team",
    "C68_same_cube",
    "C68_safe",
    "C68_calls_F",
    "C68_returns_F",
    "C68_bitwise_F",
    "C68_exact",
    "C68_exact_rings"
   ],
   "note": "any arithmetic and any constants for C68_fft to C68_safe; the outcome of the cost estimate of make_complex_plan is a parameter; uninitialised memory holds one arbitrary value per thread and allocation"
  },
  {
   "property": "C69",
   "status": "proved",
   "theorems": [
    "C69_sample_accuracy",
    "C69_signal_accuracy",
    "C69_ring_latitudes"
   ],
   "note": "IEEE binary64; sin and cos within L 2^-52 (met by correctly rounded functions with L = 1), order <= 100, rings finite; eta, the error of the rings themselves (Wigner recurrence and FFT in doubles), is a parameter of the bound"
  },
  {
   "property": "C70",
   "status": "proved",
   "theorems": [
    "C70_every_schedule",
    "C70_some_schedule",
    "C70_returns_F"
   ],
   "note": "any arithmetic; processes as separate programs meeting in collectives, any MPI implementation (only progress assumed); the timers' values and the summation order of double reductions are arbitrary"
  },
  {
   "property": "C71",
   "status": "proved",
   "theorems": [
    "C71_levels_refuted",
    "C71_report_refuted"
   ],
   "note": "violated by the code: refuted for every call that would return with equal verbosity"
  },
  {
   "property": "C72",
   "status": "proved",
   "theorems": [
    "C72_histories",
    "C72_from_scratch",
    "C72_set_data",
    "C72_sky_set_data",
    "C72_write_back",
    "C72_nearest"
   ],
   "note": "fresh memory and the remains of a failed read are assumed to hold floats (any bit pattern of a float variable is one)"
  },
  {
   "property": "C73",
   "status": "proved",
   "theorems": [
    "C73_positive",
    "C73_nothing",
    "C73_violated_negative",
    "C73_violated_zero"
   ],
   "note": "refuted: raises although normalized, returns although everything became infinite or NaN"
  },
  {
   "property": "C74",
   "status": "proved",
   "theorems": [
    "C74_accuracy",
    "C74_by_prime",
    "C74_bluestein",
    "C74_literals"
   ],
   "note": "sin and cos of the C library within 2^-50 on [-7,7] assumed (trig_ok), met by correctly rounded ones (C74_trig)"
  },
  {
   "property": "C75",
   "status": "proved",
   "theorems": [
    "C75_rings",
    "C75_signal"
   ],
   "note": "The rings and every signal of a call in doubles, computed by teams of threads with the FFT of the library, against the exact convolution; the hypothesis generator_within states the accuracy of the Wigner elements: proved for lmax = 1 with a tight libm (dipole_within), and C75_example is a whole call without hypotheses on the generator."
  },
  {
   "property": "C76",
   "status": "proved",
   "theorems": [
    "C76_view",
    "C76_columns",
    "C76_empty",
    "C76_fresh_view",
    "C76_violated_stale_view",
    "C76_violated_failed_alloc"
   ],
   "note": "C76_fresh_view assumes the convolution returns as many doubles as it got, which is C01 and C06; negative (wrap-around) indices of NumPy are not modelled."
  }
 ]
}