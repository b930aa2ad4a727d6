{"id": "C01", "title": "convolve keeps the caller's rows in place", "statement": "When convolver::convolve returns successfully on a communicator, every process finds its own samples in its pointing array, in the order it supplied them, with longitude, co-latitude and position angle unchanged.", "quantifier": "every number of processes, every split of samples over them, every array contents that meets the documented preconditions, every tie-breaking choice of the sort", "why_tests_cant": "The samples make two all-to-all trips, three sorts and two row permutations; a test fixes one process count and one sky pointing, while the claim is about every routing.", "anchors": ["src/conviqt_math.cpp: convolver::convolve, todRedistribution5cm, fillingBetaSeg, todgen", "src/conviqt_util.cpp: hpsort_arrTheta"]}
{"id": "C02", "title": "the time column is the global running index", "statement": "After convolve the fifth column of row i on rank r is (number of samples on ranks < r) + i, whatever the caller had stored there.", "quantifier": "every number of processes and every split of samples", "why_tests_cant": "Depends on every distribution of the samples over the communicator.", "anchors": ["src/conviqt_math.cpp: convolver::convolve (MPI_Scan block)"]}
{"id": "C03", "title": "the signal of a sample depends on that sample only", "statement": "The value convolve stores in the signal column of a sample is a fixed function of that sample's (phi, theta, psi), the convolver configuration and the sky/beam expansions: it does not depend on the other samples, on their order, on the previous contents of the signal/time columns, or on which process holds the sample.", "quantifier": "all sets of samples, all orders, all process counts, all correct sorts", "why_tests_cant": "Independence from context is a statement over all contexts.", "anchors": ["src/conviqt_math.cpp: convolver::interpolTOD, conviqt_tod_loop, itheta0SetUp, conviqt_hemiscm, alltoall_datacube"]}
{"id": "C04", "title": "results do not depend on the number of processes (bit for bit)", "statement": "Running convolve on the same samples with two different communicator sizes or data splits gives the same signal for each sample, with no assumption that the arithmetic is associative.", "quantifier": "all pairs of process counts and data splits", "why_tests_cant": "Pairs of arbitrary communicator sizes cannot be enumerated.", "anchors": ["src/conviqt_math.cpp: convolver::convolve"]}
{"id": "C05", "title": "convolve can be called again on its own output", "statement": "Calling convolve on the array produced by a previous convolve gives the same array again.", "quantifier": "all inputs and process counts", "why_tests_cant": "Quantifies over histories of calls.", "anchors": ["src/conviqt_math.cpp: convolver::convolve"]}
{"id": "C06", "title": "incomplete trailing rows are discarded", "statement": "The pointing array returned by convolve has length 5*floor(n/5) where n is the length passed in: a trailing partial row is silently lost.", "quantifier": "every array length", "why_tests_cant": "Every residue and every length.", "anchors": ["src/conviqt_math.cpp: convolver::convolve (totsize)"]}
{"id": "C07", "title": "illegal co-latitudes are rejected before any communication", "statement": "convolve throws on a process exactly when one of its co-latitudes compares below 0 or above pi; on a single process that is the visible outcome.", "quantifier": "all arrays", "why_tests_cant": "Range over every array content, including boundary values.", "anchors": ["src/conviqt_math.cpp: convolver::convolve (conformity check)"]}
{"id": "C08", "title": "an illegal co-latitude on some but not all processes strands the others", "statement": "(violated robustness) If one process has an illegal co-latitude and another has none, the other process blocks in a collective operation the first never enters.", "quantifier": "every communicator with at least two processes and such an input", "why_tests_cant": "Depends on communicator-wide schedules.", "anchors": ["src/conviqt_math.cpp: convolver::convolve, distribute_colatitudes"]}
{"id": "C09", "title": "every process takes part in every collective operation", "statement": "(violated) convolve is a collective call: whatever the split of samples, all processes must enter the same collectives. They do when every process holds at least one sample; a process that holds none and is assigned none skips two all-to-all exchanges that the other processes perform, so the call cannot complete.", "quantifier": "all splits of samples over processes", "why_tests_cant": "A deadlock depends on the global distribution, not on one process's input.", "anchors": ["src/conviqt_math.cpp: convolver::convolve (totsize != 0 || outBetaSegSize != 0)"]}
{"id": "C10", "title": "latitude hit map stays in bounds", "statement": "(violated) Building the colatitude histogram writes only inside the histogram for every legal co-latitude. It does for co-latitudes whose folded value is below pi/2; a sample exactly on the equator (theta = pi/2) indexes one element past the end.", "quantifier": "all legal co-latitudes, in exact and in IEEE double arithmetic", "why_tests_cant": "One boundary value among 2^62.", "anchors": ["src/conviqt_math.cpp: convolver::distribute_colatitudes (ibin = beta / wbin)"]}
{"id": "C11", "title": "colatitude boundaries are computed from in-bounds bins", "statement": "(violated) The loop that places the per-process colatitude boundaries reads only existing bins. It does when enough distinct bins are occupied; it runs one past the end as soon as the remaining hits are exhausted before the last process (for example, one occupied bin and three processes, or no samples and two processes).", "quantifier": "all histograms and process counts", "why_tests_cant": "Depends on the whole histogram and process count.", "anchors": ["src/conviqt_math.cpp: convolver::distribute_colatitudes (while (ibin < nbin))"]}
{"id": "C12", "title": "colatitude boundaries are ordered", "statement": "The boundaries handed to the processes start at 0 and never decrease, and each lies in [0, pi/2].", "quantifier": "all histograms and process counts", "why_tests_cant": "All histograms.", "anchors": ["src/conviqt_math.cpp: convolver::distribute_colatitudes"]}
{"id": "C13", "title": "every sample is routed to exactly one existing process, consistently", "statement": "The process that a sample is counted for when message sizes are agreed is the process it is packed for, it is a valid rank, the packed buffer is filled exactly, and send and receive counts agree for each pair of processes.", "quantifier": "all samples, boundaries, process counts, and even incomparable (NaN) values", "why_tests_cant": "The linear search is history dependent (starts from the previous sample's owner), so it must be checked for all sequences.", "anchors": ["src/conviqt_math.cpp: fillingBetaSeg, todRedistribution5cm, ratiobetacalcgreatercm, ratiobetacalcsmallercm"]}
{"id": "C14", "title": "calibration is applied exactly once and only when requested", "statement": "The returned signal is the convolved value times 2/(1+epsilon) when calibrate is true and the beam has not been normalized, and the convolved value itself otherwise.", "quantifier": "all flags, epsilon values, beams and inputs", "why_tests_cant": "All combinations and values.", "anchors": ["src/conviqt_math.cpp: convolver::convolve (calibration)", "src/conviqt.hpp: detector"]}
{"id": "C15", "title": "interpolation weights reproduce polynomials", "statement": "The interpolation weights used in both angles sum to 1 and reproduce every polynomial of degree at most `order` exactly at every position; at a grid node they select that node.", "quantifier": "all orders >= 0, all real positions, all polynomials up to the order", "why_tests_cant": "Real-valued identity for all orders and positions.", "anchors": ["src/conviqt_math.cpp: weight_ncm_initialize, weight_ncm"]}
{"id": "C16", "title": "each sample interpolates over exactly order+1 rings, each used once", "statement": "During convolve every sample receives a contribution from each of the order+1 consecutive rings starting at its first ring, exactly once and from no other ring, and the ring index is inside the ring table.", "quantifier": "all sets of samples (sorted by folded co-latitude), all orders, all lmax", "why_tests_cant": "The loop bounds come from global scans over the sample set.", "anchors": ["src/conviqt_math.cpp: itheta0SetUp, beta_to_itheta, conviqt_tod_loop, interpolTOD"]}
{"id": "C17", "title": "interpolation stencil is centred", "statement": "For every co-latitude in [0, pi/2] the clamps never change the first ring, and the interpolation point lies between nodes order/2 and order/2+1 of the stencil in co-latitude and in longitude.", "quantifier": "all lmax >= 0, order >= 0, all angles", "why_tests_cant": "Real-valued inequality for all parameters.", "anchors": ["src/conviqt_math.cpp: beta_to_itheta, conviqt_tod_loop, convolver::convolver"]}
{"id": "C18", "title": "longitude stencil wraps inside the ring", "statement": "(violated for large order) Every longitude index used in interpolation is in 0..2*lmax and equals the intended index modulo 2*lmax+1, provided order <= 2*lmax+1; for larger order the single wrap-around is not enough and the access is out of bounds.", "quantifier": "all longitudes, lmax, order", "why_tests_cant": "All longitudes and all (lmax, order) pairs.", "anchors": ["src/conviqt_math.cpp: conviqt_tod_loop (iphi0, iphinew)"]}
{"id": "C19", "title": "signal is 2*pi periodic in longitude and position angle", "statement": "Adding any integer multiple of 2*pi to phi or psi of a sample does not change its signal (exact arithmetic).", "quantifier": "all samples and all integers", "why_tests_cant": "All reals, all integers.", "anchors": ["src/conviqt_math.cpp: conviqt_tod_loop", "levels/cxxsupport/ls_math_utils.h: fmodulo"]}
{"id": "C20", "title": "interpolated signal formula", "statement": "The convolved value equals the tensor-product Lagrange interpolation, over the sample's ring and longitude stencil, of the real trigonometric polynomial in psi whose coefficients are the data cube entries.", "quantifier": "all samples, cubes, orders", "why_tests_cant": "Algebraic identity for all inputs.", "anchors": ["src/conviqt_math.cpp: conviqt_tod_loop"]}
{"id": "C21", "title": "complex FFT computes the DFT", "statement": "A plan of class cfft for length n, whichever algorithm its cost estimate selects (radix passes, generic radix, Bluestein) and after any history of transforms with the same plan, computes X_k = sum_j x_j exp(+2 pi i j k / n) in backward() and the conjugate transform in forward() (exact arithmetic), without reading or writing outside its work array, for every length n >= 1 for which the plan can be made; making the plan overruns the work array only for transform lengths of at least 3^14 (and does for 3^14), far above the 2*lmax+1 <= 200001 of a convolver.", "quantifier": "all lengths and all vectors", "why_tests_cant": "All lengths: the code path is selected by the factorization of n.", "anchors": ["levels/libfftpack/fftpack.c, fftpack_inc.c, ls_fft.c, bluestein.c", "levels/cxxsupport/ls_fftpack_support.h: cfft"]}
{"id": "C22", "title": "data cube rings are the trigonometric polynomials of the harmonic sums", "statement": "After the FFT stage the cube entry at longitude index p equals i^mb * sum_m C_m exp(i m phi_p) with phi_p = 2 pi p/(2 lmax+1) + pi/2.", "quantifier": "all lmax, coefficient arrays, longitude and beam indices", "why_tests_cant": "All coefficient arrays.", "anchors": ["src/conviqt_math.cpp: todAnnulus"]}
{"id": "C23", "title": "rings are computed once and delivered to every process that needs them", "statement": "Each ring needed by some process is assigned to exactly one valid process; the exchange has matching counts for every pair and puts into each requesting process's cube exactly the ring computed by its owner; nothing else changes.", "quantifier": "all need patterns, process counts, cube contents", "why_tests_cant": "All need patterns over all processes.", "anchors": ["src/conviqt_math.cpp: get_latitude_tables, alltoall_datacube"]}
{"id": "C24", "title": "ring assignment is balanced and contiguous", "statement": "Ring ownership is non-decreasing along the ring index and the number of rings of two processes differs by at most one.", "quantifier": "all need patterns and process counts", "why_tests_cant": "All patterns.", "anchors": ["src/conviqt_math.cpp: get_latitude_tables"]}
{"id": "C25", "title": "polarized convolution with zero polarization equals the intensity convolution", "statement": "With all G and C coefficients of sky or of beam equal to zero, the polarized path returns the values of the unpolarized path.", "quantifier": "all temperature expansions, grids", "why_tests_cant": "All coefficient arrays.", "anchors": ["src/conviqt_math.cpp: conviqt_hemiscm, conviqt_hemiscm_pol"]}
{"id": "C26", "title": "convolution is linear in sky and in beam", "statement": "The harmonic sums, hence the signal, are additive and homogeneous in the sky expansion and in the beam expansion (exact arithmetic).", "quantifier": "all pairs of expansions and scalars", "why_tests_cant": "Algebraic identity over all inputs.", "anchors": ["src/conviqt_math.cpp: conviqt_hemiscm, todAnnulus, conviqt_tod_loop"]}
{"id": "C27", "title": "southern hemisphere symmetry", "statement": "The southern cube ring built at folded co-latitude beta equals the northern ring formula evaluated at pi - beta.", "quantifier": "all lmax, ring angles, expansions", "why_tests_cant": "All angles and coefficients.", "anchors": ["src/conviqt_math.cpp: conviqt_hemiscm (Cmm2)", "levels/cxxsupport/wigner.cc"]}
{"id": "C28", "title": "thread schedules do not change the result", "statement": "The OpenMP loops write disjoint memory per iteration, so any assignment of iterations to threads and any interleaving gives the same arrays.", "quantifier": "all schedules and thread counts", "why_tests_cant": "All interleavings.", "anchors": ["src/conviqt_math.cpp: conviqt_hemiscm, todAnnulus, conviqt_tod_loop (#pragma omp for)"]}
{"id": "C29", "title": "Wigner generator is history independent", "statement": "The values delivered for (m1,m2,theta) do not depend on which (m1,m2) were prepared before.", "quantifier": "all sequences of prepare calls", "why_tests_cant": "All histories.", "anchors": ["levels/cxxsupport/wigner.cc: wignergen_scalar::prepare, calc"]}
{"id": "C30", "title": "Wigner recurrence", "statement": "The vector delivered for (m1,m2,theta) satisfies the three-term recurrence of the Wigner d-matrix in l with the correct starting value from the first returned l on; rescaling does not change the represented values and skipped leading values are below the accuracy threshold.", "quantifier": "all lmax, m1, m2, theta", "why_tests_cant": "All parameters.", "anchors": ["levels/cxxsupport/wigner.cc: wignergen_scalar::calc"]}
{"id": "C31", "title": "a_lm storage is a bijection", "statement": "For 0 <= mmax <= lmax, the coefficients (l,m), 0<=m<=mmax, m<=l<=lmax, occupy distinct positions that exactly fill the array of Num_Alms(lmax,mmax) elements.", "quantifier": "all lmax, mmax", "why_tests_cant": "All orders.", "anchors": ["levels/Healpix_cxx/ls_alm.h, alm.cc"]}
{"id": "C32", "title": "beam reader honours the requested expansion orders", "statement": "(violated) After beam::read(beamlmax, beammmax, ...), get_lmax and get_mmax report the requested positive values. lmax does; mmax is overwritten by beamlmax whenever beammmax > 0.", "quantifier": "all requested and stored orders", "why_tests_cant": "All combinations.", "anchors": ["src/conviqt_io.cpp: beam::read"]}
{"id": "C33", "title": "beam normalization", "statement": "normalize makes 2 sqrt(pi) b_00 = 1 and scales all components by the same factor when b_00 is non-zero; a second call changes nothing and returns 1. In double and single precision: the factor is accurate to 2^-47, every coefficient to 2^-22 and the new monopole to 2^-21 (relative) for 2^-100 <= |b_00| <= 2^100.", "quantifier": "all beams, all call histories", "why_tests_cant": "All beams and call histories.", "anchors": ["src/conviqt_math.cpp: beam::normalize"]}
{"id": "C34", "title": "normalization flag tracks the loaded beam", "statement": "(violated) normalized() is true only if the currently loaded expansion has unit integral; re-reading a beam file after normalize leaves the flag set, so normalize and calibration are skipped for the new beam.", "quantifier": "all call histories", "why_tests_cant": "Histories of calls.", "anchors": ["src/conviqt_io.cpp: beam::read", "src/conviqt_math.cpp: beam::normalize"]}
{"id": "C35", "title": "sky monopole and dipole removal", "statement": "remove_monopole zeroes exactly T(0,0) and remove_dipole exactly T(1,0) and T(1,1); all other coefficients and the polarization are unchanged, also for tiny lmax.", "quantifier": "all skies", "why_tests_cant": "All skies.", "anchors": ["src/conviqt_math.cpp: sky::remove_monopole, sky::remove_dipole"]}
{"id": "C36", "title": "convolver constructor validates expansion orders", "statement": "(violated for the default) A successfully constructed convolver only ever addresses coefficients that the sky and beam expansions contain. This holds for explicit lmax, mmax; with lmax < 0 the larger of the two input orders is taken, so coefficients beyond the smaller expansion are read.", "quantifier": "all orders", "why_tests_cant": "All combinations.", "anchors": ["src/conviqt_math.cpp: convolver::convolver"]}
{"id": "C37", "title": "replacing sky or beam keeps the convolver consistent", "statement": "(violated) set_sky/set_beam always succeed; the orders are not re-validated, so a later convolve can address coefficients the new expansion lacks.", "quantifier": "all call histories", "why_tests_cant": "Histories.", "anchors": ["src/conviqt_math.cpp: convolver::set_sky, set_beam"]}
{"id": "C38", "title": "C API functions never let a C++ exception escape", "statement": "(violated) Each C entry point returns normally (an error code or NULL on failure). This holds for the entry points with a catch-all; the convolver constructor and convolve let exceptions escape.", "quantifier": "all inputs and internal failures", "why_tests_cant": "All failure points.", "anchors": ["src/cconviqt.cpp"]}
{"id": "C39", "title": "Python wrapper detects failed construction", "statement": "(violated) Construction failure reported as a NULL handle is detected by the Python classes.", "quantifier": "all failures", "why_tests_cant": "All failure points.", "anchors": ["python/libconviqt_wrapper/__init__.py"]}
{"id": "C40", "title": "a_lm FITS files round trip", "statement": "Writing an expansion to the sparse index/real/imag table and reading it back with the same orders gives the same coefficients; reading with smaller orders gives the truncation; missing coefficients read as zero.", "quantifier": "all expansions and orders", "why_tests_cant": "All expansions.", "anchors": ["levels/Healpix_cxx/alm_fitsio.cc"]}
{"id": "C41", "title": "smoothing and deconvolution are inverse", "statement": "Reading a sky with deconvolution width f multiplies T_lm by exp(l(l+1) sigma(f)^2/2); smoothing by f afterwards restores the original coefficients (exact arithmetic), for intensity and polarization. In double and single precision the stored coefficients are the exact ones to 2^-21 (relative) while l(l+1) sigma^2/2 <= 69. (violated) From e^90 on the factor leaves the range of float: the call succeeds and every coefficient of that order is infinite or NaN.", "quantifier": "all expansions, all widths", "why_tests_cant": "All coefficients and widths.", "anchors": ["levels/Healpix_cxx/alm_powspec_tools.cc: smoothWithGauss", "src/conviqt_io.cpp: sky::read"]}
{"id": "C42", "title": "row sort", "statement": "hpsort_arr permutes whole rows, leaves the chosen column non-decreasing, and rejects any column outside 0..4 without changing the data.", "quantifier": "all arrays and columns, all correct std::sort", "why_tests_cant": "All arrays.", "anchors": ["src/conviqt_util.cpp"]}
{"id": "C43", "title": "angle reduction", "statement": "fmodulo(x, v) is in [0, v) and differs from x by an integer multiple of v, for every x and v > 0; imodulo likewise for integers.", "quantifier": "all numbers", "why_tests_cant": "All numbers; boundary cases with tiny negative x.", "anchors": ["levels/cxxsupport/ls_math_utils.h"]}
{"id": "C44", "title": "work sharing partitions the range", "statement": "calcShareGeneral gives consecutive shares that exactly cover [glo,ghi) and whose sizes differ by at most one.", "quantifier": "all ranges and share counts", "why_tests_cant": "All ranges.", "anchors": ["levels/cxxsupport/ls_share_utils.h"]}
{"id": "C45", "title": "chunked transfers cover the range once", "statement": "Splitting a transfer of `full` items into chunks of `chunk` items hands out consecutive, disjoint pieces that cover 0..full-1 exactly once, in ceil(full/chunk) steps. (It stops being true when full+chunk exceeds 2^64: the offset wraps and pieces are handed out again for ever.)", "quantifier": "all sizes and chunk sizes", "why_tests_cant": "All 64-bit sizes.", "anchors": ["levels/cxxsupport/ls_share_utils.h: chunkMaker"]}
{"id": "C46", "title": "integer logarithm", "statement": "ilog2(x) is the position of the highest set bit: 2^ilog2(x) <= x < 2^(ilog2(x)+1).", "quantifier": "all x in 1..2^64-1", "why_tests_cant": "2^64 inputs.", "anchors": ["levels/cxxsupport/ls_math_utils.h: ilog2"]}
{"id": "C47", "title": "A fresh Wigner generator's first prepare() does not overflow", "statement": "The first prepare() call on a newly constructed Wigner-matrix generator executes without undefined behaviour. (Violated: the constructor marks the tables as unprepared with the orders -1234567890, and prepare() first compares |m1|,|m2| against these by squaring/multiplying them in int, which overflows for every argument; with wrapping arithmetic the result is harmless.)", "quantifier": "every lmax, every set of colatitudes, every pair of orders passed to the first prepare()", "why_tests_cant": "signed overflow is invisible to tests on compilers that wrap; it must be excluded (or exhibited) for every argument", "anchors": ["src/wigner.cc: wignergen_scalar::wignergen_scalar, wignergen_scalar::prepare"]}
{"id": "C48", "title": "end-to-end convolution formula", "statement": "In exact arithmetic the signal convolve returns for a sample is the calibration factor times the Lagrange interpolation, over the sample's co-latitude/longitude stencil, of Re sum_{mb} (2-delta_{mb,0}) sum_m sum_l (-1)^m (sum over components of a_lm conj b_{l,mb}) d^l_{mb,m}(theta_ring) exp(i(m phi + mb psi)), where the l sum starts at the first index the code keeps.", "quantifier": "all convolver configurations with 0 < lmax, 0 <= beammmax <= lmax, order >= 0; all sky and beam expansions covering these orders; all pointings; all process counts and data splits for which the call returns", "why_tests_cant": "The formula composes the recurrence, the FFT, the ring exchange and the interpolation over all inputs; tests compare a few maps to tolerance.", "anchors": ["src/conviqt_math.cpp: convolver::convolve, hemiscm, hemiscm_pol, conviqt_tod_loop", "levels/cxxsupport/wigner.cc: wignergen::calc"]}
{"id": "C49", "title": "only negligible Wigner elements are left out of the harmonic sums", "statement": "(violated) The l sums of the convolution leave out a term only when its Wigner element is below the accuracy threshold (1e-30). The code starts both the m and the -m sum at the larger of the two first indices, so on rings near the poles elements of order one are dropped: on the pole ring the element d^l_{l,l} = 1 with l = m = mb = lmax contributes nothing.", "quantifier": "all lmax >= 1; all (mb, m, l); all rings", "why_tests_cant": "A test would have to know which term is missing; the effect is largest on rings that few test pointings visit.", "anchors": ["src/conviqt_math.cpp: convolver::hemiscm (firstl = max(firstl1, firstl2)), hemiscm_pol"]}
{"id": "C51", "title": "a file that cannot be read is reported on every process", "statement": "(violated) When the beam or sky file cannot be opened, lacks the needed tables or holds coefficients that cannot be decoded, read() fails on every process of the communicator. In fact rank 0 throws before the broadcast of the orders or of the coefficients and, with more than one process, all others wait for ever, whatever the order in which the processes make their steps.", "quantifier": "all files that cannot be read, all requests, all process counts, all schedules", "why_tests_cant": "Needs a multi-process deadlock for every failure and every communicator size.", "anchors": ["src/conviqt_io.cpp: beam::read, sky::read"]}
{"id": "C50", "title": "Python num_alms/get_data/set_data access exactly the coefficients", "statement": "For a read beam or sky, num_alms is the number of stored coefficients, get_data returns one list per component with the coefficient of (l, m) at position m(2L+1-m)/2+l, and set_data with lists of that length replaces the coefficients so that get_data returns them rounded to single precision; writing back what get_data returned changes nothing; a temperature list of another length is refused and nothing changes. (violated parts) A refused polarization list has already overwritten the temperature coefficients; set_data on a normalized beam leaves it flagged as normalized.", "quantifier": "all beams and skies, orders, polarization settings and lists; any arithmetic", "why_tests_cant": "The index arithmetic must be right for every lmax, mmax and every (l, m).", "anchors": ["python/libconviqt_wrapper/__init__.py: Beam.num_alms, get_data, set_data; Sky.num_alms, get_data, set_data", "src/cconviqt.cpp: conviqt_beam_Tdata .. conviqt_sky_Cdata"]}
{"id": "C52", "title": "No use of dangling objects under the handle discipline", "statement": "A caller that only uses handles it got and has not deleted, and keeps sky, beam and detector of a convolver while calling convolve, never makes the library access an object or block that is not there, whatever sequence of calls and allocation failures. (violated) The Python Convolver does not keep its sky and beam alive.", "quantifier": "all call histories", "why_tests_cant": "Every history of create, use, fail and delete calls.", "anchors": ["src/cconviqt.cpp", "python/libconviqt_wrapper/__init__.py: Convolver", "src/conviqt.hpp: convolver"]}
{"id": "C53", "title": "Detector names round trip", "statement": "A name (up to its first NUL) given to a detector comes back from get_id, in C for every buffer with room for it and the final NUL, in Python for every name under 1024 bytes. (violated) A Python name of 1024 bytes or more overflows the buffer.", "quantifier": "all names and buffer sizes", "why_tests_cant": "Every name length.", "anchors": ["src/cconviqt.cpp: conviqt_detector_get_id", "python/libconviqt_wrapper/__init__.py: Detector.get_id"]}
{"id": "C54", "title": "A failed read leaves an object that is consistent", "statement": "(violated) After a failed read of a sky or beam, the reported order and polarization match the coefficients. The code assigns polarization and order before all checks: a convolver made from such a sky accepts orders for which there are no coefficients.", "quantifier": "all files, orders and earlier contents", "why_tests_cant": "Every failure point of the readers.", "anchors": ["src/conviqt_io.cpp: sky::read, beam::read"]}
{"id": "C55", "title": "Validity of the pointing pointer", "statement": "After a successful allocation of n doubles the pointer gives read and write access to n doubles; it stays valid with unchanged contents over every call that does not free, reallocate or convolve that pointing; after those it is dangling.", "quantifier": "all reachable states and calls", "why_tests_cant": "All interleavings of calls between obtaining and using the pointer.", "anchors": ["src/cconviqt.cpp: conviqt_pointing_alloc, conviqt_pointing_data", "src/levels/cxxsupport/ls_arr.h"]}
{"id": "C56", "title": "A failed allocation leaves the pointing usable", "statement": "(violated) When conviqt_pointing_alloc reports failure the pointing can still be deleted or allocated again. In the code the block has been freed but is still referenced: deleting it or allocating another size frees it twice, and asking for the same size again reports success with a dangling pointer.", "quantifier": "all reachable states and sizes", "why_tests_cant": "Needs an allocation failure at every state.", "anchors": ["src/levels/cxxsupport/ls_arr.h: arr::alloc", "src/cconviqt.cpp: conviqt_pointing_alloc"]}
{"id": "C57", "title": "Convolve keeps the caller's pointing when it fails", "statement": "With an illegal co-latitude the exception leaves the pointing in place (only the index column changes). (violated) An exception after the redistribution, e.g. a polarized convolver with an unpolarized sky or beam, leaves the caller with an empty pointing.", "quantifier": "all pointings and objects", "why_tests_cant": "Every failure point after the data have been moved.", "anchors": ["src/conviqt_math.cpp: convolver::convolve, todRedistribution5cm", "src/cconviqt.cpp: conviqt_convolver_convolve"]}
{"id": "C58", "title": "Each C call has exactly its effect on the object it names", "statement": "In every state a disciplined caller can reach, a C call that returns changes only the object it names (convolve: the pointing), a new handle differs from all live ones, and the returned value and the new contents of the named object are those of the corresponding C++ operation: lmax, mmax, normalization, component data, detector name and epsilon, readers (code 0 with the file's contents, or -1), order checks of the convolver, samples read and written through the data pointer, and the convolved samples.", "quantifier": "all sequences of C calls under the handle discipline, all allocation outcomes, all file contents, any arithmetic", "why_tests_cant": "interference between objects or a wrong accessor shows only for particular histories of calls", "anchors": ["src/cconviqt.cpp: all conviqt_* functions", "src/conviqt.hpp"]}
{"id": "C59", "title": "Outcomes of convolve in double precision", "statement": "With IEEE 754 double arithmetic (every operation rounded to nearest even, infinities and NaN included), a call on samples with finite longitudes ends in exactly one of the listed ways: every rank throws when every rank holds an illegal co-latitude; ranks wait for ever when only some do, or when some rank neither holds nor is assigned samples while another one does; undefined behaviour only for the co-latitudes of C60 or when the search for process boundaries runs out of bins; otherwise every rank returns and every row holds the promised angles, sample number and signal.", "quantifier": "all grid parameters whose message sizes fit a C int, all samples with any co-latitude and position angle bits (NaN and infinities included) and any finite longitude up to 2^1000, any number of processes, any correct sort, any sin and cos", "why_tests_cant": "rounding could push an index out of range for some of the 2^192 angle triples; no test enumerates them", "anchors": ["src/conviqt_math.cpp: convolver::convolve, distribute_colatitudes, fillingBetaSeg, todRedistribution5cm, todgen, itheta0SetUp, conviqt_tod_loop", "levels/cxxsupport/ls_math_utils.h: fmodulo"]}
{"id": "C60", "title": "Co-latitudes with undefined behaviour, to the last bit", "statement": "In double precision the co-latitude histogram of convolve is written out of bounds for exactly three legal co-latitudes: the double pi/2 and its two neighbours. A NaN co-latitude passes the legality check and makes the call undefined. For every other legal co-latitude the histogram access is in bounds, and the only undefined behaviour left in the call is a failed search for process boundaries.", "quantifier": "every 64-bit co-latitude", "why_tests_cant": "the failing set is three values among 2^62 doubles, found only by reasoning about every rounding", "anchors": ["src/conviqt_math.cpp: distribute_colatitudes 268-325, convolve 1495-1520"]}
{"id": "C61", "title": "When a double precision convolve returns", "statement": "If every rank holds samples, every co-latitude is legal and none of the three of C60, all longitudes are finite, and no histogram bin holds more than M samples with M*P*(P-2) <= 2*total, then convolve returns on all P ranks with the promised rows, in IEEE double arithmetic.", "quantifier": "all samples, process counts, grid parameters within the C int limits", "why_tests_cant": "the boundary search compares rounded quotients; whether rounding can make it miss the last bin depends on all counts", "anchors": ["src/conviqt_math.cpp: distribute_colatitudes, convolve"]}
{"id": "C62", "title": "Bitwise reproducibility across process counts", "statement": "Two successful double precision calls on the same sequence of samples, distributed differently over different numbers of processes and sorted by different std::sort implementations, write bit-identical rows; each signal is one fixed function of the three angles of its own row.", "quantifier": "all distributions of all sample sequences, all process counts, all correct sorts", "why_tests_cant": "floating-point addition is not associative, so reproducibility depends on every schedule summing each sample in the same order", "anchors": ["src/conviqt_math.cpp: convolve, conviqt_tod_loop, alltoall_datacube, todRedistribution5cm", "levels/cxxsupport/sort"]}
{"id": "C63", "title": "Longitudes in double precision", "statement": "For every finite longitude up to 2^1000 in absolute value the first interpolation column lies on the grid and the sample's signal is defined, whatever rounding does; for a NaN or infinite longitude, which no check rejects, the conversion of the grid position to an integer is undefined, and a whole call with such a longitude never gives any process a result.", "quantifier": "every 64-bit longitude and position angle, every legal co-latitude, every grid", "why_tests_cant": "index computations wrap modulo the grid size after rounding; only a proof covers all bit patterns", "anchors": ["src/conviqt_math.cpp: conviqt_tod_loop 1396-1405", "levels/cxxsupport/ls_math_utils.h: fmodulo 72-80"]}
{"id": "C64", "title": "The data cube does not depend on threads or on the other rings", "statement": "In whatever arithmetic the machine uses, each ring of the data cube a process computes is a function of that ring's co-latitude alone, so it does not matter which other rings the process computes; with the schedules the code prescribes, every number of OpenMP threads and every interleaving give exactly the cube of the program without OpenMP (or none at all does); no execution has a data race or gets stuck.", "quantifier": "every arithmetic, every set of ring co-latitudes, every number of threads, every interleaving, every coefficient input that covers the requested orders", "why_tests_cant": "the Wigner generators carry state between loop iterations, and which iterations a thread has seen depends on the number of threads; floating point results could differ in the last bit for one combination in thousands", "anchors": ["src/conviqt_math.cpp: hemiscm 643-795, hemiscm_pol 898-1066, todAnnulus 1184-1274", "levels/cxxsupport/wigner.cc: prepare 313-361, calc 363-431"]}
{"id": "C65", "title": "Bit-for-bit reproducible results in double precision", "statement": "Two calls of convolve in double precision on the same samples, with the same sky, beam and grid, return bit-for-bit the same rows, whatever the numbers of processes and of OpenMP threads and however the samples are divided among the processes; every returned signal is one function of the sample's three angles.", "quantifier": "all calls that return, all numbers of processes and threads, all sort routines, all distributions of samples", "why_tests_cant": "needs all process counts, thread counts and interleavings and rounding errors at once", "anchors": ["src/conviqt_math.cpp: convolve 1479-1672, hemiscm 643-795, hemiscm_pol 898-1066, todAnnulus 1184-1274, conviqt_tod_loop 1352-1443"]}
{"id": "C66", "title": "The orders of an a_lm file", "statement": "The orders reported for a table of coefficients are those of its header keys when both are present, and otherwise the largest l and the largest m of its rows (possibly from different rows; -1 for an empty table); for a polarised file they are the largest of the three tables' orders and 0. The integer square root used to decode the index is exact in double precision for every non-negative int.", "quantifier": "every table with fewer than 2^31 rows whose indices belong to coefficients, every chunk size", "why_tests_cant": "indices up to 2^31 are decoded through a floating point square root", "anchors": ["levels/Healpix_cxx/alm_fitsio.cc: get_almsize 46-93", "levels/cxxsupport/ls_math_utils.h: isqrt 96-123"]}
{"id": "C67", "title": "In double precision the data cube is always computed", "statement": "In IEEE double precision, for every lmax up to 46340 and mmax up to lmax, every ring of the interpolation grid is computed without undefined behaviour, endless loop or exception, whatever the values of the sky and beam coefficients (including NaN and infinity) and whatever the accuracy cut-off and the FFT's results are, provided sin, cos, log and exp are accurate to one part in a million: no conversion of an out-of-range double to int, no access beyond the table of scale factors, no run of the recurrence past its arrays. Consequently a call of convolve(), with any number of threads per process, ends exactly as C59 describes, and returns under the conditions of C61.", "quantifier": "all lmax <= 46340, all mmax <= lmax, all interpolation orders, all (m1, m2), all ring co-latitudes (and all angles that are 0 or at least 2^-18), all sky/beam values, all C libraries with relative error at most 2^-20, all numbers of threads and processes", "why_tests_cant": "The number of (l, m, m', theta, lmax) combinations is astronomical, the dangerous intermediate values (scale indices, rescalings) occur at isolated combinations, and each test sees one C library and one rounding of each operation.", "anchors": ["levels/cxxsupport/wigner.cc: wignergen::wignergen, prepare, calc", "src/conviqt_math.cpp: convolver::conviqt_hemiscm, conviqt_hemiscm_pol, itheta_to_beta1, convolver::convolve", "levels/cxxsupport/ls_math_utils.h: fmodulo"]}
{"id": "C68", "title": "The FFT is a function of its data alone in any arithmetic, and threads with their own plans agree", "statement": "In IEEE doubles as in any arithmetic, a complex transform of length n depends on its direction and its n input values only: not on what malloc left in the plan's work area and scratch arrays, and not on the transforms the plan was used for before; for n up to 1195742 making the plan and using it never leaves an array, with the factorised method as with Bluestein's. Consequently a data cube computed by a team of threads that each make their own FFT plan does not depend on the number of threads, the interleaving or the contents of uninitialised memory, no execution has a race or gets stuck, whole calls of convolve() in doubles with the library's own FFT end as C67 says, and two calls on the same samples return the same bits.", "quantifier": "all number types and constants, all lengths, both methods, all contents of uninitialised memory, all histories of transforms, all teams, all interleavings, all calls", "why_tests_cant": "A test sees one memory content, usually zero pages; a stale value in a scratch array that leaks into a result changes bits only after particular histories of transforms, lengths and allocator states.", "anchors": ["levels/libfftpack/fftpack.c: cffti1, cfftf1, cfftb1, passg", "levels/libfftpack/bluestein.c: bluestein_i, bluestein", "levels/libfftpack/ls_fft.c: make_complex_plan, complex_plan_forward, complex_plan_backward", "src/conviqt_math.cpp: convolver::todAnnulus"]}
{"id": "C69", "title": "The signal written in doubles is close to the exact interpolation of the ideal rings", "statement": "If the numbers in the data cube are finite doubles of magnitude at most V, each within eta of the numbers of ideal real rings, and sin and cos of the maths library are within L 2^-52 of the truth, then every signal that convolve() returns is a finite double s for which there are real angles within (10 |phi| + 40) 2^-52, 161 2^-52 and (|psi| + 3) 2^-52 of the sample's longitude, co-latitude and position angle such that s differs from the calibration factor times the exact two-dimensional Lagrange interpolation (real arithmetic) of the ideal rings at those angles by at most the calibration factor times 4^(order+1) (mmax+1) (V K 2^-51 + eta), K = 13 order^2 + 20 order + 12 + (3 L + 27)(mmax + 1). The co-latitudes at which the rings are computed are within 160 2^-52 of k pi / (lmax + 1).", "quantifier": "all lmax, mmax, order <= 100, all rings, all maths libraries of that accuracy, all longitudes and position angles up to 2^800, all co-latitudes in [0, pi], all calls and process counts", "why_tests_cant": "A test compares a few samples with a reference of unknown accuracy; loss of accuracy for particular angles (near nodes, poles, the wrap at 2 pi), large longitudes or high orders stays unseen.", "anchors": ["src/conviqt_math.cpp: convolver::weight_ncm, convolver::conviqt_tod_loop, convolver::beta_to_itheta, convolver::itheta_to_beta1, convolver::convolve"]}
{"id": "C70", "title": "every schedule of the processes gives the same result", "statement": "Let all processes of the communicator call convolve with settings and pointings for which the call succeeds, and with verbosities on the same side of 0 and of 5. However the operating system schedules the processes and however long the MPI library keeps a process inside a collective operation (as long as it lets everybody go once all have entered), no two processes ever meet in different collective operations, the number of collective calls is bounded, nobody waits for ever, and every process returns with the same pointing as in any other schedule.", "quantifier": "all settings, pointings and process counts for which the call succeeds; all interleavings of the processes; all MPI implementations", "why_tests_cant": "a test run sees one interleaving and one MPI library; races between processes and collectives out of order appear only under particular timings", "anchors": ["src/conviqt_math.cpp: convolver::convolve, todgen, interpolTOD, conviqt_hemiscm, conviqt_hemiscm_pol, get_latitude_tables, alltoall_datacube, report_timing, timing_line", "levels/cxxsupport/mpi_support.cc", "levels/cxxsupport/ls_mpi_support.h"]}
{"id": "C71", "title": "processes may use different verbosity (violated)", "statement": "A user expects verbosity to affect printing only, so processes may choose different levels (for instance only rank 0 prints). Violated: if some verbosities are above 5 and others are not, no process ever returns from a convolve that would otherwise succeed and processes run into mismatched collective operations; if all are at most 5, a process with positive verbosity never returns when another process has verbosity 0 or less.", "quantifier": "all calls that would succeed with equal verbosities; all assignments of verbosities that straddle 5 or straddle 0; all schedules", "why_tests_cant": "tests run all processes with the same verbosity; the failure is a hang, which depends on every schedule", "anchors": ["src/conviqt_math.cpp: convolver::report_timing, timing_line (1674-1737), interpolTOD (1308-1320), conviqt_hemiscm (655-658), conviqt_hemiscm_pol (907-910), convolve", "include/conviqt.hpp: convolver"]}
{"id": "C72", "title": "Coefficients are single precision throughout", "statement": "Every coefficient a beam or sky object ever holds, and every coefficient the data accessors return, is an IEEE single precision number, whatever calls were made; a double read from a file or handed to set_data becomes the nearest one (relative error 2^-24) and writing back what get_data returned changes no bit.", "quantifier": "all call histories from the empty state, all files, all array contents, all doubles below the float range", "why_tests_cant": "Every history and every double.", "anchors": ["src/conviqt.hpp: class beam, class sky (Alm<xcomplex<float>>)", "levels/cxxsupport/xcomplex.h", "python/libconviqt_wrapper/__init__.py: Beam.set_data, Sky.set_data"]}
{"id": "C73", "title": "Python normalize raises exactly when normalization failed", "statement": "Beam.normalize() in Python raises exactly when the beam could not be normalized. (violated) A beam with negative monopole is normalized correctly but the call raises; a beam with zero monopole makes every coefficient infinite or NaN, counts as normalized, and the call returns infinity.", "quantifier": "all beams with finite non-zero or zero monopole", "why_tests_cant": "All coefficient values.", "anchors": ["python/libconviqt_wrapper/__init__.py: Beam.normalize", "src/conviqt_math.cpp: beam::normalize"]}
{"id": "C74", "title": "The FFT in doubles is accurate and does not overflow", "statement": "A transform planned for length n <= 2^30 that does not use Bluestein's algorithm, applied forwards or backwards any number of times to finite data of modulus at most M (2^-900 <= M, 2 n M <= 2^900), gives finite results only, each within n M s 2^-38 of the exact Fourier transform of that data, s the sum of the radices n is split into; with P >= 6 at least the largest prime factor of n, within n M P 2^-34. A transform that does use Bluestein's algorithm (n <= 2^28, 32 n^2 M <= 2^900) is finite and within n^2 M 2^-23 whatever the prime factors of n. The constants written in the FFT source are within 2^-50 of the numbers they stand for.", "quantifier": "all lengths, all finite data in the range, all histories of forward and backward calls, all contents of uninitialised memory, every sin and cos accurate to 2^-50", "why_tests_cant": "All doubles, all lengths and all factorizations; an accuracy test measures the error on samples and cannot bound it.", "anchors": ["levels/libfftpack/fftpack.c: cffti, cfftf, cfftb", "levels/libfftpack/fftpack_inc.c: passb2, passb3, passb4, passb5, passb6, passbg", "levels/libfftpack/ls_fft.c: make_complex_plan, complex_plan_forward, complex_plan_backward", "levels/libfftpack/bluestein.c: bluestein_i, bluestein, good_size"]}
{"id": "C75", "title": "Accuracy of the signal from the coefficients on", "statement": "Every signal convolve() writes is a finite double within an explicit tolerance of the interpolated exact convolution of sky and beam (all l up to lmax, all m, beam orders up to mmax, exact Wigner elements, exact arithmetic), evaluated at angles that agree with the sample's to a few units of 2^-52. The tolerance is proportional to the largest sky coefficient times the largest beam coefficient, and covers single-precision products, sums over l, neglected terms, phase factors, the library's FFT (with or without Bluestein's algorithm), interpolation, and calibration; it is stated in terms of the accuracy delta of the Wigner elements the generator returns.", "quantifier": "all coefficients of sky and beam (T or T,G,C) within the single-precision range, all lmax <= 46340, mmax, orders <= 100, pointings, numbers of processes and threads, contents of uninitialised memory, libraries of elementary functions within 4 units of 2^-52, all Wigner accuracies delta <= 2^-16", "why_tests_cant": "a test compares a few signals with a tolerance picked by hand; the bound quantifies over all coefficients, pointings and schedules", "anchors": ["src/conviqt_math.cpp hemiscm 643-806, hemiscm_pol 898-1066, todAnnulus 1184-1274, interpolTOD 1277-1349, conviqt_tod_loop 1352-1443, convolve 1479-1672", "src/fftpack.c", "src/wigner.cc calc 363-431"]}
{"id": "C76", "title": "NumPy views of a Python Pointing", "statement": "After Pointing(n) or alloc(n), n > 0, data() is an n x 5 array over the library's buffer: every element can be read and written, and view[i, 0..4] is longitude, co-latitude, position angle, signal and index of the row i the library reads; called again after convolve it gives such an array of the same shape. A pointing without rows raises. (violated) An array obtained before convolve, before alloc with another number of rows, or from a Pointing that has since been deleted, refers to freed memory; after an alloc that raised for lack of memory data() gives such an array and the destructor frees the buffer twice.", "quantifier": "every reachable state of the objects, every number of rows, every element of the view, every later call", "why_tests_cant": "A stale view usually still shows plausible old values, so a test that reads it passes; allocation failures cannot be provoked at every point.", "anchors": ["python/libconviqt_wrapper/__init__.py: Pointing.__init__, alloc, data, __del__", "src/cconviqt.cpp: conviqt_pointing_alloc, conviqt_pointing_data", "src/conviqt_math.cpp: convolver::convolve"]}
