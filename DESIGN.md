# Formal model of hpc4cmb/libconviqt — design

## Approach

* Coq 8.16.1.  The model is a set of total Gallina functions in `rocq/theories/*Model.v`; each definition cites the
  lines of `/repo` it models.  Specification vocabulary that is independent of the model's helpers is in `*Spec*.v`
  (SpecModel, InterpSpec, WigSpec, HarmSpec, ApiSpec, CapiSpec).  `Prop*.v` hold the theorems the manifest lists, each with a
  concrete case (`*_example`, `Demo.v`, `PropApiCases.v`) that meets its hypotheses.
* **Outcomes.**  `Ok v | Throw e | UB kind`; for a whole communicator `GOk | GThrow | GUB | GStuck` (`GStuck`: some process
  waits for ever in a collective that another process never enters).  Out-of-range array accesses, signed overflow of `int`,
  impossible float-to-integer conversions, an inconsistent sort and endless loops are `UB`.
* **Numbers.**  Model functions are parametric in a record of arithmetic operations (`numops`, Num.v).  Theorems are stated
  (a) for every arithmetic ("any arithmetic"), sometimes under the order laws of NumLaws.v, which say nothing about the
  associativity or accuracy of + and *; (b) for the real numbers (`RNum`, "exact arithmetic", names ending in `_R` or noted
  in the manifest); (c) for IEEE binary64 (`FNum`, FloatNum.v; coefficients are binary32 numbers, SingleF.v), where sin, cos and the C library's other functions are arbitrary
  (except in C67, where they have a relative error of at most 2^-20: `libm_ok`, WigFStart.v, a hypothesis met by correctly
  rounded functions, LibmRnd.v).
* **MPI.**  A communicator is the list of the per-process states; local code is mapped over the list; each collective is one
  function on the whole list that checks that every process takes part with matching counts.  MpiProc.v and ConvProc.v also model
  the processes as separate programs that run at their own pace and meet only in the collectives, under any MPI implementation
  that satisfies the standard's progress rule; C70 relates the two models.
* **OpenMP.**  Threads are programs of single reads and writes on shared memory; a loop may be divided among the threads in
  any way; all interleavings are considered (ParModel.v, TodParModel.v).
* **std::sort** is a parameter: any function returning a sorted permutation (`sorter_ok`).
* A property the code violates is kept in the list with "(violated)" in its statement; what is proved is the refutation
  (for all inputs of a class when possible, otherwise by a reachable witness) and, where there is one, the positive part.

## What is modelled, file by file

| code | model |
|------|-------|
| src/conviqt_math.cpp: constructor, set_*, weight_ncm, distribute_colatitudes, fillingBetaSeg, ratiobeta, todRedistribution5cm, todgen, itheta0SetUp, beta_to_itheta, itheta_to_beta1, ithetacalc, interpolTOD, conviqt_tod_loop, arrFillingcm, convolve | GridModel, RouteModel, InterpModel, ConvolveModel, TodParModel |
| convolve, todgen, interpolTOD, hemiscm, hemiscm_pol, report_timing, timing_line as the program of one process, with every collective | ConvProc, MpiProc |
| beam::read and sky::read as the program of one process, with every broadcast | ReadProc |
| get_latitude_tables, alltoall_datacube | CubeModel |
| hemiscm, hemiscm_pol, todAnnulus (with their OpenMP regions; any division of the loops among threads, and the prescribed static schedules) | HarmModel, ParModel, FullModel, SchedModel |
| todAnnulus with the private FFT plan of every thread | HarmFftModel |
| beam::normalize, sky::remove_*, beam::read, sky::read, accessors (conviqt_io.cpp, conviqt.hpp) | ObjModel |
| src/cconviqt.cpp (all entry points), Python classes | ApiModel; PyPntModel (class Pointing) |
| levels: ls_mpi_support / mpi_support.cc collectives used by the library | MpiModel |
| levels: wigner.cc (scalar generator), ls_wigner.h | WigModel |
| levels: libfftpack complex transforms (all radices, generic radix, Bluestein, plans), ls_fftpack_support.h cfft | FftModel |
| levels: ls_alm.h, alm_fitsio.cc, alm_powspec_tools.cc (smoothing) | AlmModel |
| levels: sort_utils / hpsort, fmodulo, imodulo, isqrt, ilog2, calcShareGeneral, chunkMaker | UtilModel, GridModel |

Not modelled: bytes of FITS files and CFITSIO (a file is a list of tables), MPI transport (messages, buffers), message printing and
the values of the timers, the real-valued FFT (unused by the library), the SSE2 variant of the Wigner generator (same recurrences, two
angles at once), libm's accuracy (a hypothesis of C41, C67, C69, C74 and C75, arbitrary elsewhere), accuracy of the Wigner recurrences
in doubles for lmax > 1 (a hypothesis of C75),
compilers, the build system, MPI_Manager wrappers the library never calls.
Simplifications of single definitions are in their comments.

## Per-property plan and status

| id | title | status | theorems | remark |
|----|-------|--------|----------|--------|
| C01 | convolve keeps the caller's rows in place | proved | C01_rows_kept, C01_rows_kept_R |  |
| C02 | the time column is the global running index | proved | C02_time_column, C02_time_column_R |  |
| C03 | the signal of a sample depends on that sample only | proved | C03_signal_of_sample, C03_signal_of_sample_R |  |
| C04 | results do not depend on the number of processes (bit for bit) | proved | C04_process_count, C04_process_count_R |  |
| C05 | convolve can be called again on its own output | proved | C05_call_again, C05_call_again_R, C05_only_angles_matter |  |
| C06 | incomplete trailing rows are discarded | proved | C06_partial_row_lost, C06_partial_row_lost_R |  |
| C07 | illegal co-latitudes are rejected before any communication | proved | C07_illegal_theta_throws, C07_illegal_theta_iff_R, C07_every_schedule | C07_every_schedule: for processes running at their own pace |
| C08 | an illegal co-latitude on some but not all processes strands the others | proved | C08_others_stranded_refuted, C08_every_schedule_refuted | violated by the code: proved that the other processes wait for ever, in the whole-communicator model and for every schedule of the processes |
| C09 | every process takes part in every collective operation | proved | C09_all_enter_nonempty_R, C09_all_enter_refuted, C09_outcomes_R, C09_every_schedule_refuted_R, C09_every_schedule_refuted_F | violated by the code for processes without samples: refuted with a witness; calls in which every process has samples proved; C09_outcomes_R (exact) and C59_outcomes_F (doubles) list all outcomes; C09_every_schedule_refuted_*: in every stuck call no schedule lets any process return, and mismatched collectives are reached |
| C10 | latitude hit map stays in bounds | proved | C10_hit_map, C10_bin_R, C10_equator_refuted | violated at theta = pi/2: refuted; positive part proved |
| C11 | colatitude boundaries are computed from in-bounds bins | proved | C11_boundaries_iff_R, C11_boundaries_iff_F, C11_boundaries_sufficient_R, C11_boundaries_refuted | violated: refuted; the exact condition proved in exact arithmetic and in IEEE doubles, and a simple sufficient condition |
| C12 | colatitude boundaries are ordered | proved | C12_boundaries_ordered, C12_boundaries_ordered_R, C12_boundaries_ordered_F | _F: in IEEE doubles, with every rounding of the bin width and of the boundary products |
| C13 | every sample is routed to exactly one existing process, consistently | proved | C13_routing, C13_owner_zone_R, C13_owner_zone_F, C13_counts_agree | _F: in IEEE doubles, the owner's zone as the code's double boundaries delimit it |
| C14 | calibration is applied exactly once and only when requested | proved | C14_calibration, C14_calibration_R |  |
| C15 | interpolation weights reproduce polynomials | proved | C15_weights_reproduce_polynomials, C15_weights_sum, C15_weights_at_node, C15_weights_F | _F: in IEEE doubles, for orders up to 100 and positions in the middle cell, with the rounding error stated |
| C16 | each sample interpolates over exactly order+1 rings, each used once | proved | C16_stencil_windows, C16_each_ring_once, C16_sorted_rows, C16_sorted_rows_F | sorted_rows: set-up succeeds and the windows cover exactly the stencils, inside the ring table; _F: in IEEE doubles for lmax < 2^20 and order <= 2 lmax + 1 |
| C17 | interpolation stencil is centred | proved | C17_stencil_centred, C17_stencil_centred_F | _F: in IEEE doubles for lmax < 2^20, order <= 2 lmax + 1 and longitudes up to 2^800, co-latitude brackets up to multiples of 2^-52 |
| C18 | longitude stencil wraps inside the ring | proved | C18_longitude_wrap, C18_violated_large_order | proved for order <= 2 lmax + 1; refuted for every larger order (out-of-bounds read for some longitude) |
| C19 | signal is 2*pi periodic in longitude and position angle | proved | C19_periodicity | exact arithmetic; lifted to whole calls of convolve |
| C20 | interpolated signal formula | proved | C20_signal_formula | exact arithmetic; lifted to whole calls of convolve |
| C21 | complex FFT computes the DFT | proved | C21_dft, C21_all_lengths, C21_convolver, C21_refuted_long | libfftpack modelled pass by pass (radix 2-6, generic radix, factorization, twiddle table, Bluestein, plans): every transform of every history equals the Fourier sum over the reals with exact constants, for both outcomes of the cost estimate; C21_convolver discharges the FFT assumption of C22 etc.; C21_refuted_long: length 3^14 overruns the factor area (outside the range a convolver uses). |
| C22 | data cube rings are the trigonometric polynomials of the harmonic sums | proved | C22_cube_rings | exact arithmetic; the FFT routine enters through the hypothesis that it computes the DFT of length 2 lmax + 1 (property C21) |
| C23 | rings are computed once and delivered to every process that needs them | proved | C23_rings_delivered |  |
| C24 | ring assignment is balanced and contiguous | proved | C24_owners_balanced |  |
| C25 | polarized convolution with zero polarization equals the intensity convolution | proved | C25_zero_polarization | exact arithmetic; whole calls of convolve |
| C26 | convolution is linear in sky and in beam | proved | C26_linear_in_sky, C26_linear_in_beam | exact arithmetic; whole calls of convolve |
| C27 | southern hemisphere symmetry | proved | C27_south_symmetry | exact arithmetic |
| C28 | thread schedules do not change the result | proved | C28_threads, C28_tod_threads, C28_finish_threads, C28_call_threads | all four parallel regions: the two that build the data cube (exact arithmetic), todAnnulus, and the sample loop (any arithmetic); any assignment of iterations to threads, any team size, any interleaving of single reads and writes |
| C29 | Wigner generator is history independent | proved | C29_history_independent | exact arithmetic; values computed by a generator do not depend on the earlier calls |
| C30 | Wigner recurrence | proved | C30_wigner_elements, is_wigner_unique | exact arithmetic (scaled numbers modelled exactly with their scale indices); angle moved by at most 1e-15 at 0 and pi as the code does |
| C31 | a_lm storage is a bijection | proved | C31_storage_bijection, C31_violated_large_lmax | lmax <= 46339 is the exact limit: beyond it (lmax = mmax) the int count overflows, proved as C31_violated_large_lmax |
| C32 | beam reader honours the requested expansion orders | proved | C32_beam_read, C32_beam_rejected, C32_violated_mmax, C32_violated_default_lmax, C32_every_schedule, C32_rejected_every_schedule | any number of processes; the reader's result characterised, requests beyond the file refused on every process; the same for every interleaving of the processes' steps (C32_*_every_schedule); violated by the code for explicit mmax (wrong order; whole beam lost with default lmax): both refutations proved for all files and requests |
| C33 | beam normalization | proved | C33_normalize, C33_normalize_F | exact arithmetic; rounding errors of double and float |
| C34 | normalization flag tracks the loaded beam | proved | C34_violated_stale_flag | violated by the code: proved for every file |
| C35 | sky monopole and dipole removal | proved | C35_remove_monopole, C35_remove_dipole | any arithmetic |
| C36 | convolver constructor validates expansion orders | proved | C36_accepts, C36_explicit, C36_default_equal, C36_violated_default_lmax, C36_violated_mmax, C36_violated_lmax0 | holds for explicit orders with 0 < lmax, mmax <= lmax; violated otherwise: refuted for all such inputs |
| C37 | replacing sky or beam keeps the convolver consistent | proved | C37_set_sky, C37_set_beam, C37_violated_sky, C37_violated_beam | positive part for replacements of sufficient order; violated otherwise: refuted |
| C38 | C API functions never let a C++ exception escape | proved | C38_escapes_only, C38_beam_read_code, C38_sky_read_code, C38_data_null, C38_violated_convolver_new, C38_convolver_new_null, C38_violated_convolve | positive: only the convolver constructor, convolve and constructors out of memory can throw; refuted for those |
| C39 | Python wrapper detects failed construction | proved | C39_violated_convolver, C39_violated_beam_sky, C39_read_failure, C39_sky_read_failure | violated by the code: NULL passes for a constructed object (ctypes gives None, None == 0 is False); failing reads are detected |
| C40 | a_lm FITS files round trip | proved | C40_reader, C40_reader_rejects, C40_round_trip, C40_identity, C40_identity_R, C40_identity_F | for any arithmetic with a correct isqrt; isqrt is proved correct in exact arithmetic and in IEEE doubles |
| C41 | smoothing and deconvolution are inverse | proved | C41_smoothing, C41_inverse, C41_smoothing_pol, C41_inverse_pol, C41_sky_read, C41_sky_read_any, C41_sky_read_F, C41_violated_overflow, C41_sky_rejected, C41_every_schedule, C41_rejected_every_schedule | C41_sky_read and C41_sky_rejected cover the reader on any number of processes, the *_every_schedule theorems every interleaving of the processes' steps; _F: rounding errors, for an exp accurate to 2^-50 on [-70,70] |
| C42 | row sort | proved | C42_row_sort, C42_bad_column, C42_two_arrays, C42_two_arrays_sizes | any arithmetic whose <= is a total preorder on the keys; any correct std::sort |
| C43 | angle reduction | proved | C43_fmodulo, C43_imodulo, C43_fmodulo_F | _F: in IEEE doubles |
| C44 | work sharing partitions the range | proved | C44_shares |  |
| C45 | chunked transfers cover the range once | proved | C45_chunks, C45_wraps_refuted | wrap-around refuted with a witness |
| C46 | integer logarithm | proved | C46_ilog2 |  |
| C47 | A fresh Wigner generator's first prepare() does not overflow | proved | C47_first_prepare_overflows | violation proved for every argument of the first prepare() |
| C48 | end-to-end convolution formula | proved | C48_end_to_end | exact arithmetic; composition of C20, C22, C23, C30 for whole calls of convolve |
| C49 | only negligible Wigner elements are left out of the harmonic sums | proved | C49_violated_at_pole | refutation: the term l = m = mb = lmax is dropped on the pole ring although its Wigner element is 1 up to the pole offset |
| C51 | a file that cannot be read is reported on every process | proved | C51_beam_open_failure, C51_sky_open_failure, C51_beam_every_schedule_refuted, C51_sky_every_schedule_refuted, C51_beam_coefs_every_schedule_refuted, C51_sky_coefs_every_schedule_refuted | violated by the code: the other processes wait for ever, whatever the schedule, when the file cannot be opened and when its coefficients cannot be read |
| C50 | Python num_alms/get_data/set_data access exactly the coefficients | proved | C50_num_alms, C50_get_data, C50_set_data, C50_sky_get_data, C50_sky_set_data, C50_write_back, C50_wrong_size, C50_sky_wrong_size, C50_violated_not_atomic, C50_violated_stale_flag | generic in the arithmetic; values are rounded to float when they are written |
| C52 | No use of dangling objects under the handle discipline | proved | C52_no_dangling, C52_reached_safe, C52_violated_python | one process; the Python part is refuted |
| C53 | Detector names round trip | proved | C53_c_round_trip, C53_nul, C53_python_round_trip, C53_violated_long_name | names of 1024 bytes or more: refuted |
| C54 | A failed read leaves an object that is consistent | proved | C54_violated_sky, C54_violated_beam | violated by the code: refuted |
| C55 | Validity of the pointing pointer | proved | C55_valid, C55_stable, C55_dangling | one process |
| C56 | A failed allocation leaves the pointing usable | proved | C56_violated_failed_alloc | violated by the code: refuted for every reachable state |
| C57 | Convolve keeps the caller's pointing when it fails | proved | C57_illegal_theta_keeps, C57_violated_lost, C57_violated_unpolarized | positive part for illegal angles; refuted for later exceptions |
| C58 | Each C call has exactly its effect on the object it names | proved | C58_frame, C58_effect, C58_samples | one process; any arithmetic; specification in CapiSpec.v |
| C59 | Outcomes of convolve in double precision | proved | C59_outcomes_F, C59_returned_rows_F, C01_rows_kept_F, C02_time_column_F, C05_call_again_F, C06_partial_row_lost_F, C07_illegal_theta_iff_F, C09_all_enter_F | IEEE binary64 through Flocq's BinarySingleNaN; sin and cos arbitrary; the data cube itself is an arbitrary function of the ring co-latitude here |
| C60 | Co-latitudes with undefined behaviour, to the last bit | proved | C60_bin_F, C60_undefined_F, C60_nan_not_rejected_F, C60_only_boundaries_F | IEEE binary64; refutes the wish that every legal co-latitude be safe, with the exact set of exceptions |
| C61 | When a double precision convolve returns | proved | C61_returns_F | IEEE binary64; sufficient condition |
| C62 | Bitwise reproducibility across process counts | proved | C62_bitwise_F, C03_signal_of_sample_F | IEEE binary64, given equal data cube rings for equal ring co-latitudes |
| C63 | Longitudes in double precision | proved | C63_longitude_F, C63_sample_defined_F, C63_longitude_refuted_F, C63_outcomes_F, C63_call_refuted_F, C63_call_undefined_F | IEEE binary64; violated for NaN and infinite longitudes: refuted for the value of a sample and for whole calls on any number of processes (all outcomes of such calls are listed) |
| C64 | The data cube does not depend on threads or on the other rings | proved | C64_ring_by_ring, C64_threads, C64_safe | any arithmetic (in particular IEEE doubles); the Wigner generator's long doubles are modelled with the same number type; a ring that would run into undefined behaviour has no execution that completes |
| C65 | Bit-for-bit reproducible results in double precision | proved | C65_signal_of_sample_F, C65_bitwise_F | IEEE binary64 with arbitrary sin, cos, log, exp and any FFT function of the array; C64 for the cube, C62 for the rest |
| C66 | The orders of an a_lm file | proved | C66_table_orders, C66_file_orders, C66_table_orders_R, C66_table_orders_F, C66_file_orders_F | any arithmetic with an exact isqrt, in particular doubles (isqrt_ok_F) |
| C67 | In double precision the data cube is always computed | proved | C67_cube_F, C67_rings_F, C67_transfer_F, C67_outcomes_F, C67_returns_F | IEEE binary64; sin, cos, log, exp, ln2, inv_ln2 with relative error at most 2^-20 (libm_ok; met by correctly rounded functions, rlibm_ok); the generator's long doubles are modelled as doubles |
| C68 | The FFT is a function of its data alone in any arithmetic, and threads with their own plans agree | proved | C68_fft, C68_plan, C68_team, C68_same_cube, C68_safe, C68_calls_F, C68_returns_F, C68_bitwise_F, C68_exact, C68_exact_rings | any arithmetic and any constants for C68_fft to C68_safe; the outcome of the cost estimate of make_complex_plan is a parameter; uninitialised memory holds one arbitrary value per thread and allocation |
| C69 | The signal written in doubles is close to the exact interpolation of the ideal rings | proved | C69_sample_accuracy, C69_signal_accuracy, C69_ring_latitudes | IEEE binary64; sin and cos within L 2^-52 (met by correctly rounded functions with L = 1), order <= 100, rings finite; eta, the error of the rings themselves (Wigner recurrence and FFT in doubles), is a parameter of the bound |
| C70 | every schedule of the processes gives the same result | proved | C70_every_schedule, C70_some_schedule, C70_returns_F | any arithmetic; processes as separate programs meeting in collectives, any MPI implementation (only progress assumed); the timers' values and the summation order of double reductions are arbitrary |
| C71 | processes may use different verbosity (violated) | proved | C71_levels_refuted, C71_report_refuted | violated by the code: refuted for every call that would return with equal verbosity |
| C72 | Coefficients are single precision throughout | proved | C72_histories, C72_from_scratch, C72_set_data, C72_sky_set_data, C72_write_back, C72_nearest | fresh memory and the remains of a failed read are assumed to hold floats (any bit pattern of a float variable is one) |
| C73 | Python normalize raises exactly when normalization failed | proved | C73_positive, C73_nothing, C73_violated_negative, C73_violated_zero | refuted: raises although normalized, returns although everything became infinite or NaN |
| C74 | The FFT in doubles is accurate and does not overflow | proved | C74_accuracy, C74_by_prime, C74_bluestein, C74_literals | sin and cos of the C library within 2^-50 on [-7,7] assumed (trig_ok), met by correctly rounded ones (C74_trig) |
| C75 | Accuracy of the signal from the coefficients on | proved | C75_rings, C75_signal | The rings and every signal of a call in doubles, computed by teams of threads with the FFT of the library, against the exact convolution; the hypothesis generator_within states the accuracy of the Wigner elements: proved for lmax = 1 with a tight libm (dipole_within), and C75_example is a whole call without hypotheses on the generator. |
| C76 | NumPy views of a Python Pointing | proved | C76_view, C76_columns, C76_empty, C76_fresh_view, C76_violated_stale_view, C76_violated_failed_alloc | C76_fresh_view assumes the convolution returns as many doubles as it got, which is C01 and C06; negative (wrap-around) indices of NumPy are not modelled. |

Nothing in the list is considered inexpressible.  Methods: C01-C14, C16, C23, C24: invariants through routing, exchange, sort and
unsort on the whole-communicator model; C15, C17-C20: Lagrange basis and order facts over R; C21, C22: Fourier sums, induction
on the factor list; C25-C27, C48, C49: harmonic sums over R; C28: interleavings of threads with disjoint footprints;
C29, C30, C47: the generator as a state machine, three-term recurrences; C31, C40-C46: integer arithmetic and loops;
C32-C39, C50-C58: state machines of objects and handles; C59-C63: rounding error bounds and monotonicity of rounding, Sterbenz'
lemma for the folding of co-latitudes, exact comparison of the float and real boundary searches;
C64-C68: footprints of threads and array bounds for any arithmetic, rounding error bounds of the Wigner recurrence; C69: a calculus of
mixed forward-backward rounding errors (FloatErr: value, magnitude, number of roundings) through weights, angles, positions and sums; C70, C71: every process is in the
same round or one ahead, a simulation between rounds of collectives and single steps (MpiProcLemmas, ConvProcLemmas); C72, C73 and C33 in doubles:
invariants of call histories (SingleLemmas), binary32 rounding errors (SingleF, NormErr, SmoothErr); C74: two runs of the transform in lockstep,
one in doubles and one exact (FftLock), rounding errors of the butterflies, passes, tables and of Bluestein's algorithm (FftErr*), literals (FftLits);
C75: products, harmonic sums, rotations and phases in doubles against the exact ones (RingErr, RingErr2), composed with C74 and C69 (PropRingErr),
and the accuracy of the generator proved for lmax = 1 (DipoleF, PropDipole).

## Trusted base

* Coq's kernel (8.16.1), no plugin, no native compilation.
* Axioms of the standard library only.  `Print Assumptions` lists for each theorem of the manifest at most the axioms of one of
  - `closed`: no axiom at all;
  - `F`: `FunctionalExtensionality.functional_extensionality_dep`;
  - `R`: `ClassicalDedekindReals.sig_not_dec`, `ClassicalDedekindReals.sig_forall_dec`,
    `FunctionalExtensionality.functional_extensionality_dep`;
  - `R+C`: these and `Classical_Prop.classic`.
* Libraries used without axioms of their own: Flocq (`Core`, `IEEE754.BinarySingleNaN`, `Prop.Sterbenz`, `Prop.Relative`, `Prop.Plus_error`), Coquelicot (`Complex`). From the standard library also `Machin` (digits of pi).
* The hand-written correspondence between `/repo` and the model (comments of the definitions), the models of MPI, OpenMP,
  std::sort and ctypes named above (for MPI: matching of the n-th collectives, data semantics and progress as stated at the top of MpiProc.v).

`Print Assumptions` per theorem:

* `closed`: C01_rows_kept, C02_time_column, C03_signal_of_sample, C04_process_count, C05_call_again, C05_only_angles_matter, C06_partial_row_lost, C07_illegal_theta_throws, C07_every_schedule, C08_others_stranded_refuted, C08_every_schedule_refuted, C10_hit_map, C11_boundaries_refuted, C12_boundaries_ordered, C13_routing, C13_counts_agree, C14_calibration, C16_stencil_windows, C16_each_ring_once, C16_sorted_rows, C23_rings_delivered, C24_owners_balanced, C28_tod_threads, C28_finish_threads, C28_call_threads, C31_storage_bijection, C31_violated_large_lmax, C32_beam_read, C32_beam_rejected, C32_violated_mmax, C32_violated_default_lmax, C32_every_schedule, C32_rejected_every_schedule, C35_remove_monopole, C35_remove_dipole, C38_escapes_only, C38_beam_read_code, C38_sky_read_code, C38_data_null, C38_violated_convolver_new, C38_convolver_new_null, C38_violated_convolve, C39_violated_convolver, C39_violated_beam_sky, C39_read_failure, C39_sky_read_failure, C40_reader, C40_reader_rejects, C40_round_trip, C40_identity, C41_sky_read_any, C41_sky_rejected, C41_every_schedule, C41_rejected_every_schedule, C42_row_sort, C42_bad_column, C42_two_arrays, C42_two_arrays_sizes, C43_imodulo, C44_shares, C45_chunks, C45_wraps_refuted, C46_ilog2, C47_first_prepare_overflows, C51_beam_open_failure, C51_sky_open_failure, C51_beam_every_schedule_refuted, C51_sky_every_schedule_refuted, C51_beam_coefs_every_schedule_refuted, C51_sky_coefs_every_schedule_refuted, C50_num_alms, C50_get_data, C50_set_data, C50_sky_get_data, C50_sky_set_data, C50_write_back, C50_wrong_size, C50_sky_wrong_size, C50_violated_not_atomic, C50_violated_stale_flag, C52_no_dangling, C52_reached_safe, C52_violated_python, C53_c_round_trip, C53_nul, C53_python_round_trip, C53_violated_long_name, C55_valid, C55_stable, C55_dangling, C56_violated_failed_alloc, C57_illegal_theta_keeps, C57_violated_lost, C58_frame, C58_effect, C58_samples, C66_table_orders, C66_file_orders, C68_fft, C68_plan, C70_every_schedule, C70_some_schedule, C71_levels_refuted, C71_report_refuted, C76_view, C76_columns, C76_empty, C76_fresh_view, C76_violated_stale_view, C76_violated_failed_alloc
* `R+C`: C01_rows_kept_R, C02_time_column_R, C03_signal_of_sample_R, C04_process_count_R, C05_call_again_R, C06_partial_row_lost_R, C07_illegal_theta_iff_R, C09_all_enter_nonempty_R, C09_all_enter_refuted, C09_outcomes_R, C09_every_schedule_refuted_R, C09_every_schedule_refuted_F, C10_equator_refuted, C11_boundaries_iff_F, C12_boundaries_ordered_F, C13_owner_zone_F, C14_calibration_R, C15_weights_F, C16_sorted_rows_F, C17_stencil_centred_F, C19_periodicity, C20_signal_formula, C22_cube_rings, C25_zero_polarization, C26_linear_in_sky, C26_linear_in_beam, C27_south_symmetry, C28_threads, C29_history_independent, C30_wigner_elements, C33_normalize_F, C36_explicit, C36_default_equal, C36_violated_default_lmax, C36_violated_mmax, C36_violated_lmax0, C37_set_sky, C37_set_beam, C37_violated_sky, C37_violated_beam, C40_identity_F, C41_sky_read_F, C41_violated_overflow, C43_fmodulo_F, C48_end_to_end, C49_violated_at_pole, C54_violated_sky, C57_violated_unpolarized, C59_outcomes_F, C59_returned_rows_F, C01_rows_kept_F, C02_time_column_F, C05_call_again_F, C06_partial_row_lost_F, C07_illegal_theta_iff_F, C09_all_enter_F, C60_bin_F, C60_undefined_F, C60_nan_not_rejected_F, C60_only_boundaries_F, C61_returns_F, C62_bitwise_F, C03_signal_of_sample_F, C63_longitude_F, C63_sample_defined_F, C63_longitude_refuted_F, C63_outcomes_F, C63_call_refuted_F, C63_call_undefined_F, C65_signal_of_sample_F, C65_bitwise_F, C66_table_orders_F, C66_file_orders_F, C67_cube_F, C67_rings_F, C67_transfer_F, C67_outcomes_F, C67_returns_F, C68_calls_F, C68_returns_F, C68_bitwise_F, C68_exact_rings, C69_sample_accuracy, C69_signal_accuracy, C69_ring_latitudes, C70_returns_F, C72_histories, C72_from_scratch, C72_set_data, C72_sky_set_data, C72_write_back, C72_nearest, C73_positive, C73_nothing, C73_violated_negative, C73_violated_zero, C74_accuracy, C74_by_prime, C74_bluestein, C74_literals, C75_rings, C75_signal
* `R`: C10_bin_R, C11_boundaries_iff_R, C11_boundaries_sufficient_R, C12_boundaries_ordered_R, C13_owner_zone_R, C15_weights_reproduce_polynomials, C15_weights_sum, C15_weights_at_node, C17_stencil_centred, C18_longitude_wrap, C18_violated_large_order, C21_dft, C21_all_lengths, C21_convolver, C21_refuted_long, is_wigner_unique, C33_normalize, C34_violated_stale_flag, C36_accepts, C40_identity_R, C41_smoothing, C41_inverse, C41_smoothing_pol, C41_inverse_pol, C41_sky_read, C43_fmodulo, C54_violated_beam, C66_table_orders_R, C68_exact
* `F`: C64_ring_by_ring, C64_threads, C64_safe, C68_team, C68_same_cube, C68_safe
