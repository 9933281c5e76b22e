{"id": "C01", "title": "Cartesian/spherical conversion round-trips", "statement": "utils.sph2cart(*utils.cart2sph(x,y,z)) gives back (x,y,z) for every non-zero point (with positive_azi on or off, and with steady_zen whenever the radius is at least 1e-14), cart2sph inverts sph2cart on azi in (-pi,pi], zen in (0,pi), r>0, and the returned angles always lie in azi in (-pi,pi] (or [0,2pi)), zen in [0,pi], r>=0.", "quantifier": "every real x,y,z (not all zero) and every azimuth/zenith/radius in the stated ranges", "why_tests_cant": "The claim ranges over an infinite set of real inputs / sizes; a test samples finitely many.", "anchors": ["spaudiopy/utils.py:cart2sph", "spaudiopy/utils.py:sph2cart", "spaudiopy/utils.py:cart2dir", "spaudiopy/utils.py:dir2cart"]}
{"id": "C02", "title": "haversine is the central angle", "statement": "utils.haversine returns r times the angle between the two directions, i.e. r*arccos of the dot product of their unit vectors, which is what utils.angle_between returns for these vectors; it is symmetric, lies in [0, pi*r] and is 0 exactly when the directions coincide.", "quantifier": "every pair of azimuth/zenith angles (zenith in [0,pi]) and radius r>=0", "why_tests_cant": "The claim ranges over an infinite set of real inputs / sizes; a test samples finitely many.", "anchors": ["spaudiopy/utils.py:haversine", "spaudiopy/utils.py:angle_between"]}
{"id": "C03", "title": "rotation_euler is a rotation", "statement": "utils.rotation_euler(yaw,pitch,roll) is an orthogonal matrix with determinant 1: it preserves lengths, angles and handedness of every vector.", "quantifier": "every real yaw, pitch, roll and every vector", "why_tests_cant": "The claim ranges over an infinite set of real inputs / sizes; a test samples finitely many.", "anchors": ["spaudiopy/utils.py:rotation_euler"]}
{"id": "C04", "title": "rotation_rodrigues is the rotation about k", "statement": "utils.rotation_rodrigues(k,theta) is orthogonal with determinant 1, keeps the axis k fixed and turns every vector orthogonal to k by theta; this holds for every non-zero k and every theta>1e-9. For theta<=1e-9 (in particular for every negative angle) the function returns the identity, so rotating by -theta does not undo rotating by theta.", "quantifier": "every non-zero axis and every real angle", "why_tests_cant": "The claim ranges over an infinite set of real inputs / sizes; a test samples finitely many.", "anchors": ["spaudiopy/utils.py:rotation_rodrigues"]}
{"id": "C05", "title": "rotation_vecvec maps f to t", "statement": "utils.rotation_vecvec(f,t) either raises ValueError (exactly when the unit vectors are parallel or anti-parallel up to 1e-14) or returns a rotation matrix that sends f/|f| to t/|t|, exactly whenever the angle between them exceeds 1e-9.", "quantifier": "every pair of non-zero vectors", "why_tests_cant": "The claim ranges over an infinite set of real inputs / sizes; a test samples finitely many.", "anchors": ["spaudiopy/utils.py:rotation_vecvec"]}
{"id": "C06", "title": "Degree/radian conversions wrap and invert", "statement": "utils.deg2rad maps every real into [0,2pi), utils.rad2deg maps every real into [0,360), rad2deg(deg2rad(d)) = d mod 360, deg2rad(rad2deg(r)) = r mod 2pi, and adding full turns changes nothing.", "quantifier": "every real angle and every integer number of turns", "why_tests_cant": "The claim ranges over an infinite set of real inputs / sizes; a test samples finitely many.", "anchors": ["spaudiopy/utils.py:deg2rad", "spaudiopy/utils.py:rad2deg"]}
{"id": "C07", "title": "dB conversions invert each other", "statement": "utils.from_db(utils.db(x,power),power) = |x| for x != 0, utils.db(utils.from_db(d,power),power) = d, products become sums, and swapping the two ears negates the dB level difference; 10^(d/20) (amplitude) or 10^(d/10) (power) is |x|.", "quantifier": "every non-zero ratio, every dB value, both modes", "why_tests_cant": "The claim ranges over an infinite set of real inputs / sizes; a test samples finitely many.", "anchors": ["spaudiopy/utils.py:db", "spaudiopy/utils.py:from_db"]}
{"id": "C08", "title": "interleave_channels keeps every channel in place", "statement": "utils.interleave_channels puts left channel i at output 2i and right channel i at output 2i+1, has twice as many channels, raises ValueError exactly for different shapes (or style 'SSR' with a channel count other than 360), and taking even/odd outputs recovers both inputs.", "quantifier": "every channel count, every sample count, every content", "why_tests_cant": "Every size at once; a test covers a few shapes.", "anchors": ["spaudiopy/utils.py:interleave_channels"]}
{"id": "C09", "title": "stack only ever succeeds on equal, non-square shapes", "statement": "utils.stack returns the inputs stacked below each other when both have the same M x N shape with M<N, side by side when N<M, and raises ValueError for every other pair of shapes, including those sharing only one dimension, although the docstring promises stacking along the shared dimension.", "quantifier": "every pair of 2-D shapes and contents", "why_tests_cant": "All shapes at once, including the negative cases.", "anchors": ["spaudiopy/utils.py:stack"]}
{"id": "C10", "title": "asarray_1d returns the flattened data or raises", "statement": "utils.asarray_1d returns the row-major data of the input exactly when at most one dimension differs from 1, raises ValueError otherwise, and is idempotent.", "quantifier": "every array shape and content", "why_tests_cant": "All ranks and sizes at once.", "anchors": ["spaudiopy/utils.py:asarray_1d"]}
{"id": "C11", "title": "sh_rotation_matrix rotates the sound field", "statement": "For every order N>=1 and all angles, the matrix R_N returned by sph.sh_rotation_matrix satisfies sh_matrix(N, R v) = sh_matrix(N, v) R_N^T for every direction v, where R = utils.rotation_euler(yaw,pitch,roll); it is block diagonal per SH order, and rotate_sh applies it. For N = 0 the call raises although the rotation of an order-0 signal is the identity.", "quantifier": "every SH order, every yaw/pitch/roll, every direction", "why_tests_cant": "Arbitrary order and the continuum of rotations and directions.", "anchors": ["spaudiopy/sph.py:sh_rotation_matrix", "spaudiopy/sph.py:rotate_sh", "spaudiopy/sph.py:sh_matrix", "spaudiopy/utils.py:rotation_euler"]}
{"id": "C12", "title": "Modal weights have unit gain in the steering direction", "statement": "A beamformer from parsa.sh_beamformer_from_pattern with pattern hypercardioid, cardioid or max_rE (or unity_gain/butterworth weights) passes a plane wave from its own steering direction (encoded by sph.src_to_sh) with gain exactly 1, for every order and every steering direction.", "quantifier": "every SH order, every steering direction, every source signal", "why_tests_cant": "Needs the spherical harmonic addition theorem at every order and direction.", "anchors": ["spaudiopy/sph.py:hypercardioid_modal_weights", "spaudiopy/sph.py:cardioid_modal_weights", "spaudiopy/sph.py:maxre_modal_weights", "spaudiopy/sph.py:butterworth_modal_weights", "spaudiopy/sph.py:unity_gain", "spaudiopy/parsa.py:sh_beamformer_from_pattern"]}
{"id": "C13", "title": "N3D/SN3D conversion round-trips", "statement": "sph.sn3d_to_n3d(sph.n3d_to_sn3d(F,axis),axis) = F and vice versa, where channel n^2+n+m is scaled by 1/sqrt(2n+1) resp. sqrt(2n+1), for every order, every signal and both axes.", "quantifier": "every SH order, every signal matrix, axis 0 and 1", "why_tests_cant": "Every order and length at once.", "anchors": ["spaudiopy/sph.py:n3d_to_sn3d", "spaudiopy/sph.py:sn3d_to_n3d", "spaudiopy/sph.py:repeat_per_order"]}
{"id": "C14", "title": "SH to B-format conversion round-trips", "statement": "sph.b_to_sh(sph.sh_to_b(F,w),w) = F and sh_to_b(b_to_sh(B,w),w) = B for every W weight except 0 (where b_to_sh raises LinAlgError), and sh_to_b of an encoded plane wave gives W=w*s and (X,Y,Z)=s*unit vector, i.e. agrees with src_to_b for w=1. On any signal sh_to_b gives sqrt(4pi)(w F_0, F_3/sqrt3, F_1/sqrt3, F_2/sqrt3).", "quantifier": "every 4-channel signal of every length, every W weight, every source direction", "why_tests_cant": "The claim ranges over an infinite set of real inputs / sizes; a test samples finitely many.", "anchors": ["spaudiopy/sph.py:sh_to_b", "spaudiopy/sph.py:b_to_sh", "spaudiopy/sph.py:src_to_b"]}
{"id": "C15", "title": "SHT inverts the inverse SHT", "statement": "On every grid whose weighted spherical harmonic matrix is orthonormal (Y^H diag(w) Y = I, equal weights 4pi/Q by default) sph.sht(sph.inverse_sht(F)) = F for every coefficient set, and sht is linear; with more coefficients than order N the surplus is ignored. On any function sht is the weighted sum of its samples times the harmonics (ValueError for a wrong number of weights) and inverse_sht is the value of the series at every grid point, with and without precomputed harmonics.", "quantifier": "every grid size, order, number of signals and coefficient values", "why_tests_cant": "Arbitrary grid sizes and orders.", "anchors": ["spaudiopy/sph.py:sht", "spaudiopy/sph.py:inverse_sht", "spaudiopy/sph.py:sht_lstsq"]}
{"id": "C16", "title": "design_sph_filterbank mode 'perfect' reconstructs perfectly", "statement": "If the sector grid satisfies Y^T Y = J/(4pi) I (e.g. a t-design of degree >= 2N) and all modal weights are non-zero, then B @ A is exactly the identity for every order, number of sectors and weights, so out = in for every SH signal; mode 'energy' yields a multiple of the identity. On any non-empty grid, with weights without zeros, A has entries c_n Y_nm at each sector direction, B has 4 pi/(J c_n) Y_nm in mode 'perfect' and 4 pi c_0/(c_n sqrt(J sum (2n+1) c_n^2)) Y_nm in mode 'energy'; with a zero weight no finite matrices result.", "quantifier": "every order, sector count, modal weights, input signal", "why_tests_cant": "Every order, grid and weight vector; the test suite samples three orders with one weight family.", "anchors": ["spaudiopy/sph.py:design_sph_filterbank", "spaudiopy/sph.py:sph_filterbank_reconstruction_factor"]}
{"id": "C17", "title": "bandlimited_dirac is the axisymmetric beam pattern", "statement": "sph.bandlimited_dirac(N,d,w) equals sum_n w_n sum_m Y_nm(u) Y_nm(v) for every two directions u, v at central angle d, so the pattern depends on the angle only; at d = 0 it equals sum w_n(2n+1)/(4pi), its maximum when the weights are non-negative.", "quantifier": "every order, weights, and pair of directions", "why_tests_cant": "Addition theorem for every order.", "anchors": ["spaudiopy/sph.py:bandlimited_dirac", "spaudiopy/sph.py:sh_matrix"]}
{"id": "C18", "title": "ACN layout of per-order weights", "statement": "sph.repeat_per_order(c) has (N+1)^2 entries and the entry at ACN index n^2+n+m is c[n] for every order n and every -n<=m<=n; sh_matrix writes the harmonic of order n and degree m into the same column.", "quantifier": "every order and every coefficient vector", "why_tests_cant": "Every order at once.", "anchors": ["spaudiopy/sph.py:repeat_per_order", "spaudiopy/sph.py:sh_matrix"]}
{"id": "C19", "title": "rE vector stays inside the loudspeaker sphere", "statement": "sph.r_E returns, for every gain row that is not all zero, the mean of the loudspeaker positions weighted by the squared gains, a convex combination, so its magnitude never exceeds the largest loudspeaker radius (1 for unit-radius layouts), it is unchanged by scaling the gains, and an all-zero gain row gives magnitude 0.", "quantifier": "every loudspeaker layout, every gain matrix", "why_tests_cant": "The claim ranges over an infinite set of real inputs / sizes; a test samples finitely many.", "anchors": ["spaudiopy/sph.py:r_E"]}
{"id": "C20", "title": "soundfield_to_b decodes first-order fields exactly", "statement": "If the four tetrahedral microphone signals sample a first-order field w + x*ux + y*uy + z*uz, sph.soundfield_to_b returns exactly (w,x,y,z)-scaled B-format channels, for every signal.", "quantifier": "every first-order field and every number of samples", "why_tests_cant": "The claim ranges over an infinite set of real inputs / sizes; a test samples finitely many.", "anchors": ["spaudiopy/sph.py:soundfield_to_b", "spaudiopy/sph.py:platonic_solid", "spaudiopy/sph.py:sht"]}
{"id": "C21", "title": "Quadrature weights of the analytic grids sum to the sphere area", "statement": "grids.equal_angle(n) returns (2n+2)^2 points and weights summing to exactly 4pi, grids.gauss(n) returns (n+1)(2n+2) points whose weights sum to 4pi, grids.equal_polar_angle(n) returns 2n+1 points with weights summing to 1, and every azimuth harmonic below the aliasing limit is integrated exactly. Point (i,j) of equal_angle lies at azimuth pi j/(n+1) and zenith (2i+1)pi/(4n+4) and its weight is positive.", "quantifier": "every order n>=0", "why_tests_cant": "Every order n.", "anchors": ["spaudiopy/grids.py:equal_angle", "spaudiopy/grids.py:gauss", "spaudiopy/grids.py:equal_polar_angle"]}
{"id": "C22", "title": "Design loaders return the next available degree", "statement": "grids.load_n_design(d) and grids.load_lebedev(d) return the design of the smallest tabulated degree >= d for every admissible d, always terminate, and raise ValueError outside the documented range; load_t_design and load_Fliege_Maier_nodes return exactly the requested entry. The degree returned exceeds the requested one by at most 13 (load_n_design; by at most 1 up to degree 90) or 5 (load_lebedev; by at most 1 up to degree 31).", "quantifier": "every integer degree", "why_tests_cant": "Every integer, including recursion depth and out-of-range ones.", "anchors": ["spaudiopy/grids.py:load_n_design", "spaudiopy/grids.py:load_lebedev", "spaudiopy/grids.py:load_t_design", "spaudiopy/grids.py:load_Fliege_Maier_nodes"]}
{"id": "C23", "title": "calculate_grid_weights integrates every harmonic exactly", "statement": "If the SH matrix of the grid has a left inverse, the weights returned by grids.calculate_grid_weights integrate every spherical harmonic up to that order exactly: they sum to 4pi and give 0 for every other harmonic.", "quantifier": "every grid and order for which the SH matrix has full column rank", "why_tests_cant": "Arbitrary grids and orders.", "anchors": ["spaudiopy/grids.py:calculate_grid_weights"]}
{"id": "C24", "title": "frac_octave_filterbank is power/amplitude complementary", "statement": "For every frequency bin the squared gains over all bands sum to 1 (mode 'energy') resp. the gains sum to 1 (mode 'amplitude'), all gains lie in [0,1], whenever neighbouring transition regions do not overlap and lie inside the spectrum; the loop generating the bands terminates for every positive f_low and never terminates for f_low = 0.", "quantifier": "every number of bands, every bin, every slope, overlap <= 0.5", "why_tests_cant": "All bin counts, band counts and recursion slopes; termination is not testable.", "anchors": ["spaudiopy/process.py:frac_octave_filterbank"]}
{"id": "C25", "title": "lagrange_delay interpolates polynomials exactly", "statement": "The N+1 taps of process.lagrange_delay(N,delay) satisfy sum_k h[k] p(k) = p(delay) for every polynomial p of degree <= N; in particular they sum to 1 (unit DC gain) and an integer delay 0<=D<=N gives a pure unit-impulse delay.", "quantifier": "every filter order, every real delay, every polynomial of degree <= N", "why_tests_cant": "Every order and real delay.", "anchors": ["spaudiopy/process.py:lagrange_delay"]}
{"id": "C26", "title": "gain_clipping limits to +6 dB over threshold", "statement": "process.gain_clipping(g,t) with t>0 leaves every g<=t unchanged, maps larger gains strictly between t and 2t, is strictly increasing and never exceeds its input.", "quantifier": "every gain array and every positive threshold", "why_tests_cant": "The claim ranges over an infinite set of real inputs / sizes; a test samples finitely many.", "anchors": ["spaudiopy/process.py:gain_clipping"]}
{"id": "C27", "title": "match_loudness never clips and preserves the mix", "statement": "process.match_loudness scales all samples by one common positive factor; the result either has exactly the target's maximal channel RMS, or has peak exactly 1; in all cases no sample exceeds magnitude 1.", "quantifier": "every non-silent input and every target", "why_tests_cant": "The claim ranges over an infinite set of real inputs / sizes; a test samples finitely many.", "anchors": ["spaudiopy/process.py:match_loudness"]}
{"id": "C28", "title": "frac_octave_smoothing is a local weighted average", "statement": "Every output bin of process.frac_octave_smoothing is a convex combination of the input bins in its fractional-octave window; the window is never empty and always contains the bin itself, so constants are preserved and the output stays within the window's minimum and maximum.", "quantifier": "every spectrum length, every smoothing order >= 1, both window types", "why_tests_cant": "Every length and bin.", "anchors": ["spaudiopy/process.py:frac_octave_smoothing"]}
{"id": "C29", "title": "half_sided_Hann is a monotone taper in (0,1]", "statement": "process.half_sided_Hann(N) has N+1 weights, the first ones equal to 1, strictly positive and non-increasing, for every N>=3; N<3 raises.", "quantifier": "every order N", "why_tests_cant": "Every order.", "anchors": ["spaudiopy/process.py:half_sided_Hann"]}
{"id": "C30", "title": "energy_decay is non-increasing", "statement": "process.energy_decay is monotonically non-increasing for every impulse response; relative to the trapezoidal total energy the curve starts at or above 0 dB, and at exactly 0 dB only if first and last samples vanish.", "quantifier": "every signal of length >= 2 with energy", "why_tests_cant": "The claim ranges over an infinite set of real inputs / sizes; a test samples finitely many.", "anchors": ["spaudiopy/process.py:energy_decay"]}
{"id": "C31", "title": "pulsed_noise timing", "statement": "process.pulsed_noise should produce `reps` pulses of t_noise seconds each followed by t_pause seconds of silence; the generated pause always lasts as long as the noise, so the output is independent of t_pause.", "quantifier": "every duration, sampling rate and repetition count", "why_tests_cant": "Every parameter combination.", "anchors": ["spaudiopy/process.py:pulsed_noise"]}
{"id": "C32", "title": "resample_hrirs does not depend on jobs_count", "statement": "process.resample_hrirs returns the same arrays for jobs_count=1 and every parallel job count and worker schedule, provided the resampler processes rows independently.", "quantifier": "every HRIR set, every job count, every completion order", "why_tests_cant": "The claim is about every interleaving of the worker processes; a test observes whichever the OS happened to pick.", "anchors": ["spaudiopy/process.py:resample_hrirs"]}
{"id": "C33", "title": "pseudo_intensity does not depend on jobs_count", "statement": "parsa.pseudo_intensity returns the same values for every jobs_count and every interleaving of workers; sample j holds the windowed intensity centred at j for every window position the loop visits, and zero elsewhere; the last complete window is never evaluated; an even window or smoothing length is rejected; after trim() the function still analyses the start of the untrimmed channels.", "quantifier": "every signal, odd window length, job count and interleaving", "why_tests_cant": "The claim is about every interleaving of the worker processes; a test observes whichever the OS happened to pick.", "anchors": ["spaudiopy/parsa.py:pseudo_intensity", "spaudiopy/parsa.py:_intensity_sample"]}
{"id": "C34", "title": "render_bsdm does not depend on jobs_count", "statement": "With the lock shared by all workers parsa.render_bsdm gives, for every interleaving, the sequential result (in exact arithmetic); if each worker process has its own lock object (spawn start method re-imports the module) updates can be lost.", "quantifier": "every signal, HRIR set, number of workers and interleaving", "why_tests_cant": "The claim is about every interleaving of the worker processes; a test observes whichever the OS happened to pick.", "anchors": ["spaudiopy/parsa.py:render_bsdm", "spaudiopy/parsa.py:_render_bsdm_sample", "spaudiopy/parsa.py:lock"]}
{"id": "C35", "title": "render_bsdm is the direction-dependent convolution", "statement": "Output sample n of each ear is sum_i p[i]*h_i[n-i] with h_i the HRIR nearest to direction i; it is linear in the pressure and equals the ordinary convolution when all directions are equal; output length is len(p)+len(hrirs)-1.", "quantifier": "every signal, direction sequence and HRIR set", "why_tests_cant": "All lengths and contents.", "anchors": ["spaudiopy/parsa.py:render_bsdm"]}
{"id": "C36", "title": "separate_cov splits the covariance exactly", "statement": "parsa.separate_cov returns S_pp, S_nn with S_pp + S_nn = S_xx for every admissible split; for 1<=num_cut<L the signal part is positive semidefinite with rank <= num_cut and the noise part keeps the L-num_cut smallest eigenvalues; for num_cut = 0 (which the default source count estimate can yield) the signal part is negative semidefinite instead of zero.", "quantifier": "every symmetric covariance matrix and split point", "why_tests_cant": "All matrix sizes and spectra.", "anchors": ["spaudiopy/parsa.py:separate_cov"]}
{"id": "C37", "title": "estimate_num_sources range and scale dependence", "statement": "parsa.estimate_num_sources returns an integer in [0, L-1] for every eigenvalue list; if no consecutive ratio exceeds the threshold it reports L-1 sources rather than 0, and scaling the covariance can change the estimate.", "quantifier": "every eigenvalue list and threshold", "why_tests_cant": "Every spectrum.", "anchors": ["spaudiopy/parsa.py:estimate_num_sources"]}
{"id": "C38", "title": "MVDR beamformer is distortionless and optimal", "statement": "Each row w of parsa.sh_mvdr satisfies w\u00b7y = 1 for its own steering vector y, and among all weights with that property it minimises the output power w S w^T when S is symmetric positive definite.", "quantifier": "every invertible covariance, every set of directions, every competing beamformer", "why_tests_cant": "Optimality over all competitors cannot be tested.", "anchors": ["spaudiopy/parsa.py:sh_mvdr"]}
{"id": "C39", "title": "LCMV beamformer meets all its constraints", "statement": "parsa.sh_lcmv returns weights w with w\u00b7y_g = c_g for every constraint direction, for every invertible covariance, and minimises the output power among all weights meeting the constraints.", "quantifier": "every invertible covariance, constraint set and competing beamformer", "why_tests_cant": "Optimality over all competitors cannot be tested.", "anchors": ["spaudiopy/parsa.py:sh_lcmv"]}
{"id": "C40", "title": "sdm_post_equalization overlap-add bookkeeping", "statement": "In parsa.sdm_post_equalization every block written lies inside the buffer, the output has the shape of the input for every signal length, and the analysis windows of every band sum to one over all interior samples; the tap-count assertion holds exactly when padsize is divisible by 4, which holds at 44.1 and 48 kHz and fails at 96 kHz; if one loudspeaker carries the whole pressure signal the output equals the input; the truncation warning inspects a single interior sample instead of the tail.", "quantifier": "every signal length, sampling rate and band", "why_tests_cant": "All lengths and rates.", "anchors": ["spaudiopy/parsa.py:sdm_post_equalization"]}
{"id": "C41", "title": "sdm_post_equalization2 gains", "statement": "In parsa.sdm_post_equalization2 all block writes are in range and the shape is preserved; band gains lie in [0,1]; the smoothed gains are convex combinations but only influence the returned list, never the audio, which uses the unsmoothed gains; if one loudspeaker carries the whole pressure signal all gains are one and the output is the input passed through the filters forwards and backwards; odd block sizes and smoothing orders below one raise.", "quantifier": "every signal length, block size and level sequence", "why_tests_cant": "All lengths and histories of gains.", "anchors": ["spaudiopy/parsa.py:sdm_post_equalization2"]}
{"id": "C42", "title": "render_stereo_sdm preserves pressure", "statement": "parsa.render_stereo_sdm returns left and right responses that sum to the pressure signal sample by sample, with both gains in [0,1].", "quantifier": "every pressure signal and direction sequence", "why_tests_cant": "The claim ranges over an infinite set of real inputs / sizes; a test samples finitely many.", "anchors": ["spaudiopy/parsa.py:render_stereo_sdm"]}
{"id": "C43", "title": "sh_music spectrum is positive, bounded and peaks in the signal space", "statement": "parsa.sh_music is strictly positive and at most 1e11 everywhere, attains that bound exactly for steering vectors orthogonal to the noise space (in particular at every source direction when the covariance is that of num_src sources in white noise), and for num_src=0 is constant because the noise space is then empty.", "quantifier": "every orthonormal eigenbasis, source count and direction", "why_tests_cant": "The claim ranges over an infinite set of real inputs / sizes; a test samples finitely many.", "anchors": ["spaudiopy/parsa.py:sh_music"]}
{"id": "C44", "title": "VBAP gains reproduce the source direction", "statement": "For every source, decoder.vbap returns either a zero row or a row supported on one valid triangle whose undone-distance gains have unit norm, are >= -1e-5, and combine the three loudspeaker vectors to a positive multiple of the source vector; gains are unchanged when the source is scaled by a positive factor.", "quantifier": "every loudspeaker layout with linearly independent triangles, every source, every norm order > 0", "why_tests_cant": "The claim ranges over an infinite set of real inputs / sizes; a test samples finitely many.", "anchors": ["spaudiopy/decoder.py:vbap", "spaudiopy/decoder.py:_invert_triplets"]}
{"id": "C45", "title": "VBAP does not depend on jobs_count", "statement": "decoder.vbap returns the same gains for jobs_count=1 and for every parallel job count and interleaving of worker writes.", "quantifier": "every layout, source list, job count and interleaving", "why_tests_cant": "The claim is about every interleaving of the worker processes; a test observes whichever the OS happened to pick.", "anchors": ["spaudiopy/decoder.py:vbap", "spaudiopy/decoder.py:_vbap_gains_single_source"]}
{"id": "C46", "title": "VBAP result must not depend on earlier calls", "statement": "vbap on a LoudspeakerSetup should depend only on the geometry and the simplices in force; the cached inverse base is never invalidated, so after vbap -> pop_triangles -> vbap (or vbap with other valid_simplices) gains computed for one triangle are written to the loudspeakers of another. The result is history independent exactly for histories in which the simplices in force never change after the first call.", "quantifier": "every sequence of vbap and pop_triangles calls on one setup", "why_tests_cant": "The claim is about every sequence of API calls on one object; a test fixes one short sequence.", "anchors": ["spaudiopy/decoder.py:vbap", "spaudiopy/decoder.py:LoudspeakerSetup.pop_triangles", "spaudiopy/decoder.py:characteristic_ambisonic_order"]}
{"id": "C47", "title": "VBIP gains are non-negative with unit norm", "statement": "decoder.vbip returns for every source either a zero row or a non-negative row of norm exactly 1 with the support of the VBAP row. It is proportional to the roots of the VBAP gains, so that the loudspeakers weighted by energy, with distances compensated, point to the source; for loudspeakers at unequal distances the energy vector at the listener does not.", "quantifier": "every layout, source and norm order", "why_tests_cant": "The claim ranges over an infinite set of real inputs / sizes; a test samples finitely many.", "anchors": ["spaudiopy/decoder.py:vbip"]}
{"id": "C48", "title": "pop_triangles only ever removes triangles", "statement": "After any sequence of pop_triangles calls the valid simplices are an order-preserving subset of the original ones, every remaining simplex satisfies all limits applied so far, repeating a call changes nothing, and is_simplex_valid answers membership independent of vertex order; an empty blacklist removes everything.", "quantifier": "every hull and every sequence of calls with every limit", "why_tests_cant": "The claim is about every sequence of API calls on one object; a test fixes one short sequence.", "anchors": ["spaudiopy/decoder.py:LoudspeakerSetup.pop_triangles", "spaudiopy/decoder.py:check_normals", "spaudiopy/decoder.py:check_aperture", "spaudiopy/decoder.py:check_opening", "spaudiopy/decoder.py:apply_blacklist", "spaudiopy/decoder.py:LoudspeakerSetup.is_simplex_valid"]}
{"id": "C49", "title": "Rim detection of find_imaginary_loudspeaker", "statement": "An edge is a rim edge exactly when it belongs to exactly one valid triangle; a closed surface raises RuntimeError; on every triangulation where each edge lies in at most two triangles every rim vertex has an even, positive number of rim edges, hence the 'More than one rim found' check can never fire, even when there are several separate rims.", "quantifier": "every triangulation", "why_tests_cant": "All triangulations at once.", "anchors": ["spaudiopy/decoder.py:find_imaginary_loudspeaker"]}
{"id": "C50", "title": "ALLRAD decodes an encoded source to the ALLRAP gains", "statement": "For every source direction, decoder.allrad applied to the source encoded with sph.src_to_sh equals decoder.allrap of that source times the signal, with or without imaginary loudspeakers, for every layout, kernel and order; likewise allrad2 equals the panning function of allrap2 projected on the harmonics. The values of allrap2 and of allrad on arbitrary coefficients are given on every hull; without ambisonics_setup all four raise ValueError, and a wrong number of channels raises AssertionError.", "quantifier": "every layout, kernel, order, source and signal", "why_tests_cant": "The claim ranges over an infinite set of real inputs / sizes; a test samples finitely many.", "anchors": ["spaudiopy/decoder.py:allrad", "spaudiopy/decoder.py:allrap"]}
{"id": "C51", "title": "Energy of SAD, MAD and EPAD", "statement": "decoder.epad preserves energy on every layout with at least (N+1)^2 loudspeakers: total output energy is 4pi/(N+1)^2 times the coefficient energy, i.e. exactly 1 for a unit plane wave from any direction; SAD and MAD do so on every layout with Y^T Y = L/(4pi) I; MAD satisfies the mode matching Y^T ls = sqrt(L)/(N+1) F on every full-rank layout. On every layout SAD samples the field at the loudspeakers times 4pi/((N+1) sqrt L), MAD is the shortest of the best fits of the modes, and with fewer than (N+1)^2 loudspeakers EPAD never raises energy and has orthogonal rows of energy 4pi/(N+1)^2.", "quantifier": "every layout, order, signal and source direction", "why_tests_cant": "All layouts, orders and directions.", "anchors": ["spaudiopy/decoder.py:sad", "spaudiopy/decoder.py:mad", "spaudiopy/decoder.py:epad"]}
{"id": "C52", "title": "nearest_loudspeaker activates exactly the closest loudspeaker", "statement": "decoder.nearest_loudspeaker returns rows with exactly one non-zero gain d^a at the loudspeaker of smallest angle to the source (the first such one).", "quantifier": "every layout and source", "why_tests_cant": "The claim ranges over an infinite set of real inputs / sizes; a test samples finitely many.", "anchors": ["spaudiopy/decoder.py:nearest_loudspeaker"]}
{"id": "C53", "title": "ALLRAP2 panning-invariant loudness", "statement": "decoder.allrap2 should give unit energy for every source when the kernel is a t-design and the kernel VBAP gains have unit norm; because the normalisation uses 2(n+1) in place of 2n+1 the energy is the constant sum (2n+1)a_n^2 / sum (2n+2)a_n^2 < 1: independent of direction, but not unity.", "quantifier": "every order, source, layout meeting the design condition", "why_tests_cant": "The claim ranges over an infinite set of real inputs / sizes; a test samples finitely many.", "anchors": ["spaudiopy/decoder.py:allrap2"]}
{"id": "C54", "title": "Face orientation helpers", "statement": "decoder.sort_vertices returns for every face the same vertices, starting with the smallest index and in reversed cyclic order; decoder.calculate_face_normals never returns a normal pointing towards the barycentre by more than eps, and its length is twice the face area.", "quantifier": "every list of faces and points", "why_tests_cant": "All sizes.", "anchors": ["spaudiopy/decoder.py:sort_vertices", "spaudiopy/decoder.py:calculate_face_normals", "spaudiopy/decoder.py:calculate_face_areas"]}
{"id": "C55", "title": "Constructing a LoudspeakerSetup must not change the caller's arrays", "statement": "LoudspeakerSetup(x,y,z,listener_position) stores positions relative to the listener; when x,y,z (or listener_position) are float arrays they are shifted in place, so building a second setup from the same arrays with a list listener_position yields positions shifted twice; without a listener offset nothing changes.", "quantifier": "every sequence of constructions over shared arrays", "why_tests_cant": "The claim is about every sequence of API calls on one object; a test fixes one short sequence.", "anchors": ["spaudiopy/decoder.py:LoudspeakerSetup.__init__", "spaudiopy/utils.py:asarray_1d"]}
{"id": "C56", "title": "binauralize is a gated superposition", "statement": "LoudspeakerSetup.binauralize equals the sum over loudspeakers of the attenuated signal convolved with the nearest HRIR, except that a channel whose samples are all <= 1e-5 is dropped; the deviation from the ungated sum is at most 1e-5 times the sum of absolute HRIR taps per dropped channel; it is linear whenever no channel is gated.", "quantifier": "every layout, signal set and HRIR set", "why_tests_cant": "The claim ranges over an infinite set of real inputs / sizes; a test samples finitely many.", "anchors": ["spaudiopy/decoder.py:LoudspeakerSetup.binauralize"]}
{"id": "C57", "title": "sh2bin is the SH-domain convolution", "statement": "decoder.sh2bin returns for each ear the sum over SH channels of the full convolution of signal and filter, of length S+L-1, linear in the signal; for a single SH channel (order 0) or a single tap the call raises because of the squeeze.", "quantifier": "every order, signal and filter length", "why_tests_cant": "All sizes.", "anchors": ["spaudiopy/decoder.py:sh2bin"]}
{"id": "C58", "title": "trim returns the requested time span", "statement": "MonoSignal.trim / MultiSignal.trim / trim_audio keep exactly the samples int(start*fs) .. int(stop*fs)-1 that exist, in order, for every 0<=start<=stop; with dur the stop is start+dur; trim asserts start before the end; a negative start is not rejected and selects from the end.", "quantifier": "every signal, sampling rate and times", "why_tests_cant": "All lengths and times.", "anchors": ["spaudiopy/sig.py:MonoSignal.trim", "spaudiopy/sig.py:MultiSignal.trim", "spaudiopy/sig.py:trim_audio"]}
{"id": "C59", "title": "Multichannel signals stay consistent over any history", "statement": "After any sequence of trim/conv/resample calls a MultiSignal keeps its channel count and common sampling rate, and channels of equal length keep equal length; an AmbiBSignal's W/X/Y/Z equal channels 0..3 after construction and after every resample but go stale after trim or conv; resampling a one-channel MultiSignal splits it into single-sample channels. Channel i after conv is the convolution with filter i (channels beyond the last filter are unchanged), and after resample what the resampler makes of channel i.", "quantifier": "every sequence of operations", "why_tests_cant": "The claim is about every sequence of API calls on one object; a test fixes one short sequence.", "anchors": ["spaudiopy/sig.py:MultiSignal", "spaudiopy/sig.py:AmbiBSignal"]}
{"id": "C60", "title": "HRIRs.nearest_idx returns the closest grid point", "statement": "HRIRs.nearest_idx(azi,zen) returns the first grid index minimising the great-circle (haversine) distance to the requested direction, for every grid and direction, and nearest_hrirs returns exactly that pair of responses.", "quantifier": "every HRIR grid and direction", "why_tests_cant": "The claim ranges over an infinite set of real inputs / sizes; a test samples finitely many.", "anchors": ["spaudiopy/sig.py:HRIRs.nearest_idx", "spaudiopy/sig.py:HRIRs.nearest_hrirs"]}
{"id": "C61", "title": "apply does not apply the function to the signal", "statement": "MonoSignal.apply(func,*args) should replace the signal by func(signal,*args); the implementation calls func(*args), so the result is independent of the signal and identical in all channels of a MultiSignal: it is func(*args), at the rate of the channel.", "quantifier": "every signal and every function", "why_tests_cant": "The claim ranges over an infinite set of real inputs / sizes; a test samples finitely many.", "anchors": ["spaudiopy/sig.py:MonoSignal.apply", "spaudiopy/sig.py:MultiSignal.apply"]}
{"id": "C62", "title": "Loudspeaker layout files round-trip", "statement": "io.load_layout(io.save_layout(l)) reproduces every loudspeaker position up to the 2-decimal rounding of azimuth, elevation and radius, keeps real and imaginary loudspeakers apart, and saving a loaded layout again writes the same numbers; ls_gains is attached by file position, so gains are misassigned when an imaginary loudspeaker precedes a real one.", "quantifier": "every layout", "why_tests_cant": "The claim ranges over an infinite set of real inputs / sizes; a test samples finitely many.", "anchors": ["spaudiopy/io.py:load_layout", "spaudiopy/io.py:save_layout"]}
{"id": "C63", "title": "Audio files keep channels, samples and sampling rate", "statement": "io.load_audio returns channels in file order and raises when sampling rates disagree; io.save_audio then load_audio returns the same channels and rate for every signal with >= 2 channels; save_audio ignores an fs argument that contradicts the signal's fs.", "quantifier": "every list of files, channel count, signal", "why_tests_cant": "All sizes and lists.", "anchors": ["spaudiopy/io.py:load_audio", "spaudiopy/io.py:save_audio"]}
{"id": "C64", "title": "SSR BRIR files are interleaved and never clip", "statement": "io.write_ssr_brirs_loudspeaker / _sdm write 720 channels with left/right of head angle a at 2a/2a+1, the same for every jobs_count, scaled by one common factor <= 1 such that no sample exceeds 1.", "quantifier": "every set of impulse responses and job count", "why_tests_cant": "The claim ranges over an infinite set of real inputs / sizes; a test samples finitely many.", "anchors": ["spaudiopy/io.py:write_ssr_brirs_loudspeaker", "spaudiopy/io.py:write_ssr_brirs_sdm"]}
{"id": "C65", "title": "Overlap-add block indices of the dummy HRIR set stay in range", "statement": "io.load_hrirs(fs,'dummy') places its pulses inside the 256 taps for every sampling rate up to 327999 Hz and every grid direction.", "quantifier": "every fs and grid direction", "why_tests_cant": "The claim ranges over an infinite set of real inputs / sizes; a test samples finitely many.", "anchors": ["spaudiopy/io.py:load_hrirs"]}
{"id": "C66", "title": "itds_from_hrirs finds pure delays exactly", "statement": "For two ears receiving the same non-zero pulse with (any non-zero) gains at samples p and q, |q-p| < n//2, the estimator behind process.itds_from_hrirs (energy cross-correlation, after resampling and filtering) returns exactly (q-p)/fs: positive if and only if the left ear comes first.", "quantifier": "every pulse shape, length, gain pair and delay", "why_tests_cant": "The claim ranges over an infinite set of real inputs / sizes; a test samples finitely many.", "anchors": ["spaudiopy/process.py:itds_from_hrirs"]}
{"id": "C67", "title": "The spherical harmonics are the documented ones", "statement": "Every real harmonic column of sph.sh_matrix equals sqrt((2n+1)/(4pi) (n-|m|)!/(n+|m|)!) P_n^|m|(cos zen) times 1, sqrt(2) sin(|m| azi) or sqrt(2) cos(|m| azi), and the complex ones carry exp(i m azi) with the Condon-Shortley phase, where P_n^m is (1-x^2)^(m/2) times the m-th derivative of the polynomial solution of Legendre's equation normalised at 1.", "quantifier": "every order, degree and direction", "why_tests_cant": "Every order and a continuum of directions.", "anchors": ["spaudiopy/sph.py:sh_matrix"]}
{"id": "C68", "title": "SH rotation matrices form a group", "statement": "sph.sh_rotation_matrix is orthogonal for every order and angle triple, and whenever three Euler triples satisfy R3 = R1 R2 their SH rotation matrices satisfy the same equation, so consecutive rotations compose.", "quantifier": "every order >= 1, every pair of rotations", "why_tests_cant": "Every order and a continuum of rotations.", "anchors": ["spaudiopy/sph.py:sh_rotation_matrix", "spaudiopy/utils.py:rotation_euler"]}
{"id": "C69", "title": "Least-squares SHT recovers band-limited signals on any full-rank grid", "statement": "If the SH matrix of the grid has a left inverse, sph.sht_lstsq(sph.inverse_sht(F)) = F for every coefficient set and every least-squares solver that meets the normal equations.", "quantifier": "every grid of full column rank, order, coefficient set and solver", "why_tests_cant": "Arbitrary grids and orders.", "anchors": ["spaudiopy/sph.py:sht_lstsq", "spaudiopy/sph.py:inverse_sht"]}
{"id": "C70", "title": "sh_mult multiplies the functions", "statement": "On a t-design of degree 2(N1+N2) the coefficients returned by sph.sh_mult(a,b) have order N1+N2 and describe the pointwise product: their value in every direction is the product of the values of a and b.", "quantifier": "every pair of orders, coefficient sets and direction", "why_tests_cant": "Every order and a continuum of directions.", "anchors": ["spaudiopy/sph.py:sh_mult"]}
{"id": "C71", "title": "project_on_sphere normalises", "statement": "sph.project_on_sphere returns v/|v| for every non-zero vector and NaN for the origin.", "quantifier": "every vector", "why_tests_cant": "The claim ranges over an infinite set of real inputs / sizes; a test samples finitely many.", "anchors": ["spaudiopy/sph.py:project_on_sphere"]}
{"id": "C72", "title": "The analytic grids make the SH transform exact", "statement": "grids.equal_angle(n) and grids.gauss(n) integrate every spherical harmonic up to order 2n+1 exactly, so sph.sht with their weights recovers every coefficient set of order n from the values sph.inverse_sht gives on the grid.", "quantifier": "every order n and coefficient set", "why_tests_cant": "Every order and a continuum of coefficients.", "anchors": ["spaudiopy/grids.py:equal_angle", "spaudiopy/grids.py:gauss", "spaudiopy/sph.py:sht", "spaudiopy/sph.py:inverse_sht"]}
{"id": "C73", "title": "Characteristic order and Ambisonics setup", "statement": "decoder.characteristic_ambisonic_order, whenever it returns, returns the least order whose max-rE angle 137.9/(N+1.51) degrees does not exceed half the average energy-vector spread of the panned face centres, and this is at least 1, so the ValueError of get_characteristic_order is unreachable; ambisonics_setup leaves the loudspeaker hull alone, appends the imaginary loudspeakers after the real ones and marks exactly those; N_kernel=None raises instead of falling back to the characteristic order.", "quantifier": "every layout, triangulation and list of imaginary loudspeakers", "why_tests_cant": "The claim ranges over an infinite set of real inputs / sizes; a test samples finitely many.", "anchors": ["spaudiopy/decoder.py:characteristic_ambisonic_order", "spaudiopy/decoder.py:LoudspeakerSetup.ambisonics_setup", "spaudiopy/decoder.py:LoudspeakerSetup.get_characteristic_order"]}
{"id": "C74", "title": "loudspeaker_signals applies one gain per loudspeaker and sample", "statement": "LoudspeakerSetup.loudspeaker_signals returns out[l,t] = sig[t] * gains[t,l] (with one gain row held, or one sample repeated), ones without a signal; it raises AssertionError for a wrong number of loudspeakers and ValueError for incompatible lengths.", "quantifier": "every gain matrix and signal", "why_tests_cant": "All sizes.", "anchors": ["spaudiopy/decoder.py:LoudspeakerSetup.loudspeaker_signals"]}
{"id": "C75", "title": "sh_sector_beamformer multiplies each sector by 1, x, y, z", "statement": "parsa.sh_sector_beamformer(A) returns 4J rows of (N+2)^2 coefficients; rows 4s..4s+3 are the spherical functions of sector s multiplied by 1, x, y and z, for every sector pattern of every order for which the design used is exact.", "quantifier": "every sector matrix, order and direction", "why_tests_cant": "Needs the product of spherical harmonics at every order.", "anchors": ["spaudiopy/parsa.py:sh_sector_beamformer", "spaudiopy/sph.py:sh_mult"]}
{"id": "C76", "title": "pseudo_intensity recovers the direction of a plane wave", "statement": "For B-format channels that carry one plane wave (as sph.src_to_b encodes it) parsa.pseudo_intensity returns exactly the azimuth and colatitude of the wave at every sample where the windowed, smoothed energy is at least 1e-14, and the returned radius is that energy; without smoothing this covers every visited sample of magnitude >= 1e-7.", "quantifier": "every signal, direction, window and smoothing length", "why_tests_cant": "The claim ranges over an infinite set of real inputs / sizes; a test samples finitely many.", "anchors": ["spaudiopy/parsa.py:pseudo_intensity", "spaudiopy/sph.py:src_to_b"]}
{"id": "C77", "title": "render_binaural_loudspeaker_sdm is a superposition of loudspeakers", "statement": "parsa.render_binaural_loudspeaker_sdm convolves, per loudspeaker, the pressure weighted with that loudspeaker's gain and its distance attenuation with the nearest HRIR and adds the results; with one loudspeaker active at a time and unit distances it equals render_bsdm with the loudspeaker directions; mismatching gain shapes are rejected.", "quantifier": "every signal, gain matrix, hull and HRIR set", "why_tests_cant": "The claim ranges over an infinite set of real inputs / sizes; a test samples finitely many.", "anchors": ["spaudiopy/parsa.py:render_binaural_loudspeaker_sdm", "spaudiopy/parsa.py:render_bsdm"]}
{"id": "C78", "title": "HRIR sets are loaded as stored, at the requested rate", "statement": "io.load_hrirs returns a set only if its sampling rate is the requested one; a .mat file with n >= 2 directions and t >= 2 taps yields exactly its rows as left and right responses and its azimuth and zenith vectors whatever the orientation in which they are stored; the default set exists for 44100, 48000 and 96000 Hz only and an existing file is not recomputed; a file with a single direction cannot be loaded because np.squeeze drops its first axis: AssertionError, or TypeError if it has one tap.", "quantifier": "every file content and sampling rate", "why_tests_cant": "The claim ranges over an infinite set of real inputs / sizes; a test samples finitely many.", "anchors": ["spaudiopy/io.py:load_hrirs"]}
{"id": "C79", "title": "SDM files are loaded as stored", "statement": "io.load_sdm returns the values of h_ref (or p), sdm_azi (or sdm_phi) and sdm_zen (or sdm_theta), without the axes of length 1, and the truncated sampling rate; with init_nan it replaces every NaN azimuth by 0 and every NaN zenith by pi/2 and nothing else, so no NaN is left; a file that has neither key of a pair, or no rate, raises KeyError.", "quantifier": "every SDM file", "why_tests_cant": "The claim ranges over an infinite set of real inputs / sizes; a test samples finitely many.", "anchors": ["spaudiopy/io.py:load_sdm"]}
{"id": "C80", "title": "SOFA sets keep their directions and responses", "statement": "For a SOFA file with m >= 2 measurements io.load_sofa_hrirs returns exactly the stored left and right responses, azimuth in radians and zenith = 90 degrees - elevation, and it raises AssertionError exactly if the distances deviate by 0.1 or more on average or an elevation exceeds 90 degrees; io.sofa_to_sh returns at every tap the smallest least-squares fit of the responses by spherical harmonics, which is exact for band-limited sets. A file with one measurement raises IndexError, and elevations below -90 degrees go unnoticed.", "quantifier": "every SOFA file with two receivers; np.linalg.pinv any Moore-Penrose inverse", "why_tests_cant": "The claim ranges over an infinite set of real inputs / sizes; a test samples finitely many.", "anchors": ["spaudiopy/io.py:load_sofa_hrirs", "spaudiopy/io.py:sofa_to_sh"]}
{"id": "C81", "title": "Mode strengths are the boundary values of the scattered field", "statement": "scipy's spherical Bessel functions as sph.spherical_hn2 combines them solve the spherical Bessel equation with the stated derivatives and Wronskian 1/z^2; sph.mode_strength(n,kr,'rigid') is, for every kr != 0, exactly 4 pi i^n times the value at kr of the incident plus outgoing wave whose radial derivative vanishes there, its squared size is (4 pi)^2/(kr^4 |h_n'|^2) and never 0; at kr = 0 it is NaN; 'open' gives 4 pi i^n j_n(kr); any other type raises ValueError.", "quantifier": "every order and every real kr", "why_tests_cant": "Every order and a continuum of arguments; a test cannot check a derivative condition.", "anchors": ["spaudiopy/sph.py:spherical_hn2", "spaudiopy/sph.py:mode_strength"]}
{"id": "C82", "title": "Coloration compensation restores the untruncated diffuse field level", "statement": "sph.pressure_on_sphere is the square root of the weighted sum of (2n+1)|b_n|^2/(4 pi)^2; sph.binaural_coloration_compensation returns at every frequency the ratio of the pressure of the full order (the smallest order not below the last kr) to that of the tapered order N, and 1 at 0 Hz; the gain is never below 1 while N does not exceed the full order and the weights lie in [0,1], is 1 if N is the full order, and below 1 if N exceeds it; weights shorter than N+1 raise IndexError; only the last frequency determines the full order, so for unsorted frequencies the filter attenuates.", "quantifier": "every order, frequency vector, radius and taper", "why_tests_cant": "The claim ranges over an infinite set of real inputs / sizes; a test samples finitely many.", "anchors": ["spaudiopy/sph.py:pressure_on_sphere", "spaudiopy/sph.py:binaural_coloration_compensation"]}
{"id": "C83", "title": "magls_bin is least squares below and magnitude least squares above the transition", "statement": "decoder.magls_bin returns, per ear and spherical harmonic, the first len(hrirs) samples (Hann-tapered at both ends) of the real signal whose bins below the one nearest to f_trans (600 Hz per order by default; the docstring says 500) are the smallest least-squares fits of the responses' spectra, and whose bins from there on are the fits of their magnitudes with the phase of the previous decoded bin, continued by the mean phase increment before the transition (per direction, of the omnidirectional coefficient, or zero) minus the additional delay; it raises AssertionError if fewer than six bins lie below the transition (always for order 0, and for order 1 at 192 kHz, with the default frequency), ValueError for less than 32 taps or an unknown continuation; an odd number of taps above 1024 loses a sample.", "quantifier": "every HRIR set, order, transition frequency, continuation and delay; np.linalg.pinv any Moore-Penrose inverse", "why_tests_cant": "The claim ranges over an infinite set of real inputs / sizes; a test samples finitely many.", "anchors": ["spaudiopy/decoder.py:magls_bin"]}
{"id": "C84", "title": "magls_bin keeps magnitudes, and changes nothing for a common delay", "statement": "If the grid directions are independent (no more than coefficients) the filters of decoder.magls_bin give back exactly the responses below the transition and exactly their magnitudes at every bin. If the responses of an ear are, up to a common delay, non-negative spectra with positive fits, the filters are sample by sample the plain least-squares fit of the responses, tapered; for pulses of any weights at any sample in the first half they are the fit of the weights at that sample.", "quantifier": "every HRIR set with independent directions / with a common delay", "why_tests_cant": "The claim ranges over an infinite set of real inputs / sizes; a test samples finitely many.", "anchors": ["spaudiopy/decoder.py:magls_bin"]}
{"id": "C85", "title": "The common transfer function equaliser inverts the smoothed diffuse level", "statement": "process.hrirs_ctf computes, with sixteen-fold zero padding, the weighted diffuse level of either ear in every bin, smooths both over one octave with Hamming weights and takes their mean s; the correction of a bin between the two frequency limits is exactly the mean of s over the ten bins around 1 kHz divided by s, it is 1 at DC and at the Nyquist bin, and always lies between 1 and that ratio. The result is the filter with these bins, delayed by taps//2+1, cut to the length of the responses and Hann windowed, or the beginning of scipy's minimum phase filter of the squared correction. Louder responses of either sign, scaled weights or swapped ears change nothing. A set of pulses of any delays and gains needs no correction. Weights of the wrong number raise AssertionError; silent sets, negative energies, and sets so short that the 1 kHz bin is below 5 give taps that are not finite; for three-tap responses the window removes the whole linear-phase filter.", "quantifier": "every HRIR set, weights, limits and both filter types", "why_tests_cant": "The claim ranges over an infinite set of real inputs / sizes; a test samples finitely many.", "anchors": ["spaudiopy/process.py:hrirs_ctf", "spaudiopy/process.py:frac_octave_smoothing"]}
{"id": "C86", "title": "apply_ctf_eq convolves every response, and only that", "statement": "sig.HRIRs.apply_ctf_eq replaces the responses of both ears by the full, same or valid part of their convolution with the taps, sets the number of samples to the new length and leaves grid and rate alone; in mode full the spectra are the products of the spectra at every transform length that holds them; a centred pulse in mode same scales the set by its height. Without taps those of hrirs_ctf are used, with its errors. Mode valid raises ValueError if the filter is longer than two or more responses, empty taps raise IndexError.", "quantifier": "every HRIR set, filter and mode", "why_tests_cant": "The claim ranges over an infinite set of real inputs / sizes; a test samples finitely many.", "anchors": ["spaudiopy/sig.py:HRIRs.apply_ctf_eq"]}
{"id": "C87", "title": "Resampling a spectrum is resampling its signal, for even lengths", "statement": "process.resample_spectrum of the one-sided spectrum of a signal of even length is the spectrum of the resampled signal, whatever the resampler; with equal rates it returns any spectrum unchanged except for the imaginary parts of the first and last bin, which are dropped, so that the spectrum of a signal of odd length is not kept.", "quantifier": "every resampler, spectrum and pair of rates", "why_tests_cant": "The claim ranges over an infinite set of real inputs / sizes; a test samples finitely many.", "anchors": ["spaudiopy/process.py:resample_spectrum"]}
{"id": "C88", "title": "The plotted spectrum shows the amplitudes of the partials", "statement": "plot.spectrum of signals of one length n draws at the frequencies k fs/n, for every signal that is a mean plus partials A_k cos(2 pi k t/n + phi_k) plus an alternating part, the absolute values |mean|, |A_k|, |alternating| (times n/2 with scale_mag), in dB or smoothed over octave fractions if asked for; the limits show the highest value, the legend is as given. Labels in a tuple raise AttributeError with smoothing; the label 'n/8 octave smoothing' it draws never names the 1/n octave used; with signals of different length the second is scaled by the length of the first.", "quantifier": "every set of signals of one length, every combination of the options", "why_tests_cant": "The claim ranges over an infinite set of real inputs / sizes; a test samples finitely many.", "anchors": ["spaudiopy/plot.py:spectrum", "spaudiopy/plot.py:freq_resp"]}
{"id": "C89", "title": "Maps draw every value in its direction; the caller's azimuths are wrapped in place", "statement": "plot.spherical_function_map, plot.doa and plot.hrirs_ild_itd draw point i at the direction of azimuth i with the value, size, colour and opacity of point i (doa from the last to the first) and within the map for azimuths of the stated ranges; symmetric colour limits hold the largest value. The first two overwrite the azimuths of the caller's array by the wrapped ones, and nothing else; doa does so even if it then raises TypeError for a plain number as colour or opacity, or ZeroDivisionError for the sampling rate 0. Faults: integer azimuth arrays are truncated, doa draws azimuths above 360 degrees opposite to their direction, hrirs_ild_itd draws those below -180 degrees off the map.", "quantifier": "every heap of arrays, size, direction", "why_tests_cant": "The claim ranges over an infinite set of real inputs / sizes; a test samples finitely many.", "anchors": ["spaudiopy/plot.py:spherical_function_map", "spaudiopy/plot.py:doa", "spaudiopy/plot.py:hrirs_ild_itd"]}
{"id": "C90", "title": "The RMS map shows the RMS of steered beams", "statement": "plot.sh_rms_map draws in every direction of the design and at the six map corners the root mean square of the beam steered there (hypercardioid weights by default), in dB if asked for. A plane wave is drawn with its own RMS in its direction and with no more anywhere. Signals longer than 2^16 samples lose the samples after the last whole block. A list of limits is changed in place, and the default list keeps the lower limit 0 that the first linear call wrote into it, which then holds for dB calls too.", "quantifier": "every signal, order, weights, design and history of calls", "why_tests_cant": "The claim ranges over an infinite set of real inputs / sizes; a test samples finitely many.", "anchors": ["spaudiopy/plot.py:sh_rms_map"]}
{"id": "C91", "title": "decoder_performance shows energy, spread and error of the energy vector", "statement": "For every gain row plot.decoder_performance plots the sum of gains and of squared gains, and the spread 2 acos |rE| and angular error of the energy vector of what reaches the listener, in degrees within [0,180]; NaN error exactly if nothing reaches the listener. If all playing loudspeakers lie within an angle of the direction so does the error. For nearest loudspeaker synthesis the error is the angle to a nearest loudspeaker and the spread 0; for VBAP the energy at the listener is 1 in every direction inside a valid face; for VBIP the energy of the feeds is 1 there and, on the unit sphere, the error is 0. The grid comes within half a step of every direction. Amplitude and energy are those of the feeds: loudspeakers off the unit sphere show the compensation for their distance.", "quantifier": "every layout, renderer, gain row, direction and grid step", "why_tests_cant": "The claim ranges over an infinite set of real inputs / sizes; a test samples finitely many.", "anchors": ["spaudiopy/plot.py:decoder_performance", "spaudiopy/decoder.py:r_E"]}
{"id": "C92", "title": "Magnitude and phase plots", "statement": "plot.transfer_function draws the exact magnitude in dB and phase of every value whose real part is positive; all others are drawn at -280 dB and phase 0 (np.clip of a complex number), e.g. -1. plot.polar draws the values >= 0 and < 0 as two curves of absolute values.", "quantifier": "every response, angle vector and limits", "why_tests_cant": "The claim ranges over an infinite set of real inputs / sizes; a test samples finitely many.", "anchors": ["spaudiopy/plot.py:transfer_function", "spaudiopy/plot.py:polar"]}
{"id": "C93", "title": "Hulls, balloons and bars show what they are given", "statement": "plot.hull splits the faces into valid and invalid ones, up to vertex order, loses none, and its limits hold all loudspeakers; with invalid faces the colours of the valid ones are those of the first faces. plot.sh_coeffs draws the absolute value of the spherical function as radius in every direction of the grid of the given positive steps and its sign as colour, and raises ZeroDivisionError for a step of 0, ValueError for negative steps up to a full turn (azimuth) or half a turn (elevation); plot.spherical_function likewise for samples; set_aspect_equal3d takes the smallest common limits; plot.sh_bar draws every value of every row at its tick if the groups divide the rows, and drops the last rows otherwise.", "quantifier": "every hull, colour list, coefficient set and group size", "why_tests_cant": "The claim ranges over an infinite set of real inputs / sizes; a test samples finitely many.", "anchors": ["spaudiopy/plot.py:hull", "spaudiopy/plot.py:sh_coeffs", "spaudiopy/plot.py:spherical_function", "spaudiopy/plot.py:set_aspect_equal3d", "spaudiopy/plot.py:sh_bar"]}
{"id": "C94", "title": "A copy of a signal is independent of it", "statement": "copy() of a MonoSignal, MultiSignal or AmbiBSignal says the same (samples, rates, W, X, Y, Z) and shares arrays among its own channels just as the original does, but no array with anything that existed before: whatever is done afterwards, in any order, with what there was and with what came of the copy, no call on one side changes a sample or a signal on the other. sig.trim_audio returns what trimming the values gives and leaves its argument alone.", "quantifier": "every memory a program can be in, every signal in it, every later history of calls (constructors, methods, item access, writes into arrays, files) by two callers", "why_tests_cant": "The claim ranges over an infinite set of real inputs / sizes; a test samples finitely many.", "anchors": ["spaudiopy/sig.py:MonoSignal.copy", "spaudiopy/sig.py:MultiSignal", "spaudiopy/sig.py:AmbiBSignal", "spaudiopy/sig.py:trim_audio"]}
{"id": "C95", "title": "Signals in memory behave as values while nobody writes into their arrays", "statement": "In every history nothing dangles and every view stays within its buffer; no constructor or method writes a sample of an existing array, only an explicit write does; trim, conv and resample on a signal in memory return or raise exactly as they do on values, and any sequence of them yields the value that the sequence of value operations yields, even if channels share arrays.", "quantifier": "every history of calls and every sequence of methods", "why_tests_cant": "The claim ranges over an infinite set of real inputs / sizes; a test samples finitely many.", "anchors": ["spaudiopy/sig.py:MonoSignal", "spaudiopy/sig.py:MultiSignal", "spaudiopy/sig.py:AmbiBSignal"]}
{"id": "C96", "title": "Which signals share samples", "statement": "A MonoSignal made from an array is that array: writing a sample of the array writes the signal's; one made from a list owns its samples. After trim it is a window: sample k of the signal is sample start+k of the array. Channels of a MultiSignal share samples exactly where the arrays given for them do. Channels read from a file lie in one buffer but share no sample. W, X, Y, Z of an AmbiBSignal are the samples of its four channels. get_signals returns an array that shares nothing.", "quantifier": "every memory, array, window, argument list and file", "why_tests_cant": "The claim ranges over an infinite set of real inputs / sizes; a test samples finitely many.", "anchors": ["spaudiopy/sig.py:MonoSignal.__init__", "spaudiopy/sig.py:MonoSignal.trim", "spaudiopy/sig.py:MultiSignal.from_file", "spaudiopy/sig.py:AmbiBSignal.__init__", "spaudiopy/utils.py:asarray_1d"]}
{"id": "C97", "title": "Recursive filters, A-to-B conversion and its filters", "statement": "scipy's lfilter as called returns the one signal that solves the difference equation of its coefficients from silence; it is linear and the convolution with its impulse response. ambeo_a2b turns four microphone signals of one length into W, X, Y, Z by the tetrahedron's formulas, accepts nothing else, and with filter coefficients W is filtered by the first pair, X, Y and Z by the second, which equals filtering the microphone signals first. b_to_stereo of a panned source gives two cardioids at plus and minus 45 degrees. The filters do not reach the channels of the signal returned: get_signals is unfiltered.", "quantifier": "all coefficients, signals and pickled filter files", "why_tests_cant": "The claim ranges over an infinite set of real inputs / sizes; a test samples finitely many.", "anchors": ["spaudiopy/process.py:ambeo_a2b", "spaudiopy/process.py:b_to_stereo"]}
{"id": "C98", "title": "The default set of HRIRs", "statement": "With the FABIAN file found or downloaded, get_default_hrirs saves for both ears, in each direction of the grid given or the Gauss grid of order 35, the real signal whose spectrum is the sum of the file's spherical harmonics in that direction; load_hrirs returns it at 44100 Hz together with the grid, and at 48000 and 96000 Hz every row resampled from the file's rate, whatever the number of processes. The set for 44100 Hz does not depend on the file's rate, so with another rate it is labelled wrongly. A missing file or one missing angle raises.", "quantifier": "all coefficients, grids, numbers of processes and schedules", "why_tests_cant": "The claim ranges over an infinite set of real inputs / sizes; a test samples finitely many.", "anchors": ["spaudiopy/io.py:get_default_hrirs", "spaudiopy/io.py:load_hrirs"]}
{"id": "C99", "title": "Zero-pole diagrams and the stability of filters", "statement": "zeropole draws all roots of both coefficient lists with their multiplicities: their product times the leading coefficient is the polynomial. Away from the origin the numerator of the transfer function vanishes exactly at the drawn zeros and the denominator at the drawn poles. If all drawn poles lie within a radius, the impulse response of lfilter with these coefficients is bounded by a multiple of the powers of that radius; if they lie inside the unit circle, bounded signals give bounded signals; and unless a pole is also a zero, only then. Zeros and poles at the origin that come from different numbers of coefficients are not drawn.", "quantifier": "all coefficient lists, signals and lengths; np.linalg.eigvals is any solver that returns the roots of the companion polynomial", "why_tests_cant": "The claim ranges over an infinite set of real inputs / sizes; a test samples finitely many.", "anchors": ["spaudiopy/plot.py:zeropole", "spaudiopy/process.py:ambeo_a2b"]}
{"id": "C100", "title": "Diagrams of several sets of coefficients", "statement": "sh_coeffs_overlay draws one surface per set: in every direction of the grid its distance is the modulus of the spherical function with those coefficients, the harmonics being of the kind asked for, otherwise of the kind of the first set; up to nine sets have different colours. sh_coeffs of complex coefficients also shows the phase. sh_coeffs_subplot shows set i with title i on axes i, of its own kind. A single set without axes, no set, and more axes than sets raise. With sets of both kinds the overlay draws a set with harmonics of the wrong kind.", "quantifier": "all coefficient lists of full orders, grids, titles and numbers of axes", "why_tests_cant": "The claim ranges over an infinite set of real inputs / sizes; a test samples finitely many.", "anchors": ["spaudiopy/plot.py:sh_coeffs", "spaudiopy/plot.py:sh_coeffs_overlay", "spaudiopy/plot.py:sh_coeffs_subplot"]}
{"id": "C101", "title": "Differences, comparisons and normals", "statement": "test_diff of two arrays of one size returns the sum of the absolute differences, a metric that is 0 only for equal entries, prints the message and then whether it exceeds the limit, and nothing when not verbose; close then means every entry within the limit. Sizes that do not fit raise. hull_normals labels point i with i, puts the mark at the mean of the points, draws at each face's centroid an arrow orthogonal to the face, of twice its area in length and not pointing to the mark, and at each vertex the sum of the area-weighted normals of its faces. test_diff ignores shapes and stretches single elements, entries within the limit may be reported as different, and compare_ambi raises for all signals.", "quantifier": "all arrays, limits, point sets and triangulations", "why_tests_cant": "The claim ranges over an infinite set of real inputs / sizes; a test samples finitely many.", "anchors": ["spaudiopy/utils.py:test_diff", "spaudiopy/plot.py:compare_ambi", "spaudiopy/plot.py:hull_normals", "spaudiopy/decoder.py:calculate_barycenter", "spaudiopy/decoder.py:calculate_vertex_normals"]}
{"id": "C102", "title": "Forward-backward filtering", "statement": "filtfilt and sosfiltfilt succeed exactly when the coefficients are admissible and the signal is longer than three times the number of taps, and then return the one signal that results from turning the signal by half a turn about both ends, running the recursion forwards from rest at the first sample, backwards from rest at the last, and cutting the ends off. The result is linear in the signal; constants are multiplied with the squared gain at frequency 0, so that filters without gain there ignore offsets. Sections amount to one filter with the products of the polynomials. Without recursion the kernel is the autocorrelation of the coefficients. If all poles lie within a radius below 1, a sinusoid of any frequency, amplitude and phase comes out multiplied with the squared modulus of the frequency response and not shifted, but for an error that decays with the powers of the radius from both ends, uniformly in frequency, phase and length.", "quantifier": "all coefficient lists, sections, signals, frequencies and phases", "why_tests_cant": "The claim ranges over an infinite set of real inputs / sizes; a test samples finitely many.", "anchors": ["spaudiopy/process.py:ilds_from_hrirs", "spaudiopy/process.py:itds_from_hrirs", "spaudiopy/parsa.py:pseudo_intensity"]}
{"id": "C103", "title": "Butterworth band-pass filters", "statement": "Designing a band-pass of order 2 succeeds exactly for 0 < lower < upper < half the sampling rate. Its power gain at every frequency is the Butterworth characteristic 1/(1+x^4) on the warped axis tan(f/2): nothing passes at 0 and at half the sampling rate, half the power at both cut-offs, all of it at one frequency between them, the gain rises up to there and falls beyond, and at least half passes exactly between the cut-offs. All poles lie inside the unit circle, so the filter is stable; the numerator is k(1,0,-2,0,1). The two output forms, coefficients and second-order sections, filter every signal forwards and backwards alike, exactly signals of more than 15 samples can be filtered, constants are removed, and a sinusoid comes out unshifted with the power gain as its gain, but for errors that decay from both ends.", "quantifier": "all cut-off frequencies, signals, frequencies and phases", "why_tests_cant": "The claim ranges over an infinite set of real inputs / sizes; a test samples finitely many.", "anchors": ["spaudiopy/process.py:ilds_from_hrirs", "spaudiopy/process.py:itds_from_hrirs", "spaudiopy/parsa.py:pseudo_intensity"]}
{"id": "C104", "title": "Interaural differences and intensity of band-passed signals", "statement": "ilds_from_hrirs returns per direction the difference of the levels of the band-passed responses in dB (no value if an ear is silent) or of their root mean squares; it changes sign when the ears are swapped, by the ratio of the gains in dB when the ears get gains, and not at all when constants are added. itds_from_hrirs returns minus the first lag, among as many as there are samples around 0, with the largest correlation of the squared, upsampled, band-passed responses, over the rate; gains do not change it, swapping the ears negates it where one lag dominates, it is 0 when one ear gets a multiple of the other's response, and never more than half the response. pseudo_intensity with a band returns what it returns for the band-passed channels without one; a plane wave keeps its direction. Cut-offs not between 0 and half the sampling rate, in order, and signals of at most 15 samples raise. The default upper cut-off makes ilds_from_hrirs raise up to 40 kHz, and two silent ears have a time difference of half the response.", "quantifier": "all responses, gains, offsets, cut-offs, sampling rates, windows and schedules; the resampler is any function on rows, homogeneous where gains are concerned", "why_tests_cant": "The claim ranges over an infinite set of real inputs / sizes; a test samples finitely many.", "anchors": ["spaudiopy/process.py:ilds_from_hrirs", "spaudiopy/process.py:itds_from_hrirs", "spaudiopy/parsa.py:pseudo_intensity"]}
{"id": "C105", "title": "What constructors, files and readers of signals give", "statement": "A MonoSignal has the samples of its argument and the rate given; a MultiSignal has one such channel per argument in order, and an AmbiBSignal is one with exactly four, whose W, X, Y, Z are the four arguments. from_file gives the frames of a one-channel file, or one channel per column, at the file's rate; it raises RuntimeError without a file, ValueError for a rate other than the file's or a file with the wrong number of dimensions, AssertionError if an AmbiBSignal would not have four channels, and ValueError without a rate for constructors of several channels. get_signals gives the channels as rows and s[i:j] the slice of the samples. AmbiBSignal.sh_to_b gives the four-channel signal, at the same rate, of the conversion of the stacked channels, leaves errors of the conversion alone and refuses a MonoSignal.", "quantifier": "every memory a program can be in, all arguments, files and slices", "why_tests_cant": "The claim ranges over an infinite set of real inputs / sizes; a test samples finitely many.", "anchors": ["spaudiopy/sig.py:MonoSignal.__init__", "spaudiopy/sig.py:MonoSignal.from_file", "spaudiopy/sig.py:MultiSignal.__init__", "spaudiopy/sig.py:MultiSignal.from_file", "spaudiopy/sig.py:MultiSignal.get_signals", "spaudiopy/sig.py:AmbiBSignal.__init__", "spaudiopy/sig.py:AmbiBSignal.from_file", "spaudiopy/sig.py:AmbiBSignal.sh_to_b"]}
{"id": "C106", "title": "Transforms with complex spherical harmonics", "statement": "The complex harmonics are Y_n^0 = R_n^0 and, for m > 0, Y_n^m = (-1)^m (R_n^m + i R_n^-m) / sqrt 2, Y_n^-m = (R_n^m - i R_n^-m) / sqrt 2, with R the real harmonics. On a grid exact to twice the order they are orthonormal, the transform (with the weights, or without on a grid of equal weights) recovers the complex coefficients of every function of that order from its samples, and the weighted sum of squared moduli equals that of the coefficients. The transform is linear; the inverse transform gives the values of the function, raises ValueError with fewer coefficients than the order needs, and gives zero without coefficients. The real and the complex transform of a real function, on any grid, describe the same function: the coefficients are related by the formula above, negative degrees are (-1)^m times the conjugates of positive ones, and the inverse transforms give the same values. src_to_sh in the complex basis is the sum of the band-limited peaks of the sources, and raises ValueError when signals and directions do not match. The least-squares transform is a best fit, recovers coefficients when the matrix has full rank, and of a real function describes the function of the real one.", "quantifier": "all orders, directions, grids with the stated exactness, weights, functions and coefficients", "why_tests_cant": "The claim ranges over an infinite set of real inputs / sizes; a test samples finitely many.", "anchors": ["spaudiopy/sph.py:sh_matrix", "spaudiopy/sph.py:sht", "spaudiopy/sph.py:sht_lstsq", "spaudiopy/sph.py:inverse_sht", "spaudiopy/sph.py:src_to_sh"]}
{"id": "C107", "title": "Filter banks, products and SOFA sets with complex harmonics; mode 'pinv'", "statement": "design_sph_filterbank with complex harmonics, on sector grids and for weights without zeros: in mode 'perfect' synthesis after analysis is the identity; in mode 'energy' it is the identity times the same factor as for real harmonics; on any non-empty grid the entries of both matrices are those of the real bank with complex harmonics, conjugated for synthesis, in place of real ones; other modes raise ValueError. In mode 'pinv', real or complex, analysis rows are the weighted harmonics and synthesis after analysis is an orthogonal projection, the identity when the analysis has full rank; on sector grids this is so, and synthesis is 4 pi / (J c_n) times the conjugate harmonics. sofa_to_sh with complex harmonics describes the functions of the real result. sh_mult with complex harmonics gives the coefficients of the product of the two functions.", "quantifier": "all orders, directions, weights, coefficients and files", "why_tests_cant": "The claim ranges over an infinite set of real inputs / sizes; a test samples finitely many.", "anchors": ["spaudiopy/sph.py:design_sph_filterbank", "spaudiopy/sph.py:sph_filterbank_reconstruction_factor", "spaudiopy/sph.py:sh_mult", "spaudiopy/io.py:sofa_to_sh"]}
{"id": "C108", "title": "check_listener_inside tests against the barycentre, not the face planes", "statement": "decoder.check_listener_inside keeps, in order, exactly the faces at whose centroid the angle between the listener and the barycentre of all loudspeakers is not obtuse (so all of them for a listener at the barycentre); the constructor stores the faces kept for the origin as enclosing and valid. Where the barycentre lies straight above a face's centroid this says that the listener is on the inner side of the face's plane. In general it does not: a face can be dropped although the listener is strictly inside the hull, and all faces can be kept although the listener is strictly outside.", "quantifier": "every set of points, triangulation and listener", "why_tests_cant": "The claim ranges over an infinite set of real inputs / sizes; a test samples finitely many.", "anchors": ["spaudiopy/decoder.py:check_listener_inside", "spaudiopy/decoder.py:calculate_barycenter", "spaudiopy/decoder.py:calculate_centroids", "spaudiopy/decoder.py:LoudspeakerSetup.__init__"]}
{"id": "C109", "title": "HRIRs objects: construction, update, access", "statement": "HRIRs(left,right,azi,zen,fs) is accepted exactly if left, right, azi and zen have the same length, with AssertionError otherwise; the two ears may have different numbers of taps, although the message speaks of equal length. h[k] is the pair of k-th responses, negative k counting from the end, IndexError beyond. update_hrirs replaces the responses and the tap count and nothing else, or raises AssertionError and changes nothing: after any sequence of updates the responses are those of the last fitting one. nearest_idx of arrays gives the first closest grid point of each direction; one azimuth goes with any number of zeniths, but not one zenith with several azimuths (ValueError).", "quantifier": "every set, index, direction and sequence of updates", "why_tests_cant": "The claim ranges over an infinite set of real inputs / sizes; a test samples finitely many.", "anchors": ["spaudiopy/sig.py:HRIRs.__init__", "spaudiopy/sig.py:HRIRs.__len__", "spaudiopy/sig.py:HRIRs.__getitem__", "spaudiopy/sig.py:HRIRs.update_hrirs", "spaudiopy/sig.py:HRIRs.nearest_idx", "spaudiopy/sig.py:HRIRs.nearest_hrirs"]}
{"id": "C110", "title": "rms, area_triangle, subband_levels and resample_signal", "statement": "utils.rms along an axis is the root of the mean squared magnitude, lies between the smallest and largest magnitude and scales with |c|. utils.area_triangle satisfies Heron's formula, does not depend on the order of the corners or on translation, and is zero exactly for collinear corners. process.subband_levels gives sqrt(fs/(2w) sum|x|^2), and with power=True fs/(2w) times the mean power along the last axis; along the first axis it divides by the number of columns instead of the number of samples summed. process.resample_signal resamples every signal along the axis by itself and drops axes of length one; along axis 0 each sample of a vector is taken for a signal.", "quantifier": "every matrix, width, rate, triangle and resampler", "why_tests_cant": "The claim ranges over an infinite set of real inputs / sizes; a test samples finitely many.", "anchors": ["spaudiopy/utils.py:rms", "spaudiopy/utils.py:area_triangle", "spaudiopy/process.py:subband_levels", "spaudiopy/process.py:resample_signal"]}
{"id": "C111", "title": "Panning with imaginary loudspeakers retained", "statement": "decoder.vbap and decoder.vbip with retain_outside=True raise ValueError if there is no ambisonics hull and otherwise pan on the ambisonics hull and delete the gains of its imaginary loudspeakers: row l of the result holds the gain of the l-th real loudspeaker. For equal unit distances the energy of a VBAP row that can be panned is 1 minus the energy given to imaginary loudspeakers; for a source at an imaginary loudspeaker all real gains are 0. After ambisonics_setup(update_hull=True, imaginary_ls) the number of gains is that of the real loudspeakers. The docstring of vbip says that amplitude will not fade out with VBIP; it does, at an imaginary loudspeaker.", "quantifier": "every hull, set of imaginary loudspeakers, source, norm order and schedule", "why_tests_cant": "The claim ranges over an infinite set of real inputs / sizes; a test samples finitely many.", "anchors": ["spaudiopy/decoder.py:vbap", "spaudiopy/decoder.py:vbip", "spaudiopy/decoder.py:LoudspeakerSetup.ambisonics_setup"]}
{"id": "C112", "title": "Gauss-Legendre quadrature behind grids.gauss", "statement": "For every degree d >= 1 numpy's leggauss(d) on top of exact eigenvalues of its companion matrix returns the d roots of the Legendre polynomial of degree d, ascending, within (-1,1) and symmetric about 0, with the positive weights 2/((1-x^2)P'(x)^2); they integrate every polynomial of degree up to 2d-1 exactly, and no weights on these nodes reach degree 2d. None of the divisions divides by zero; degree 0 raises ValueError. So grids.gauss(n) has positive weights and integrates every spherical harmonic up to order 2n+1 exactly. legval and legder are the series and the coefficients of its derivative.", "quantifier": "every degree, every coefficient list", "why_tests_cant": "The claim ranges over an infinite set of real inputs / sizes; a test samples finitely many.", "anchors": ["spaudiopy/grids.py:gauss"]}
{"id": "C113", "title": "Modal weights and what they optimise", "statement": "hypercardioid_modal_weights(N) are the only weights of order N whose beam (bandlimited_dirac) has unit response on its axis and least energy over the sphere, namely 4pi/(N+1)^2. cardioid_modal_weights(N) are the only weights whose beam is ((1+cos t)/2)^N, with energy 4pi/(2N+1), and equal the inphase_modal_weights up to a factor. No beam of order N has an energy vector longer than the largest root of the Legendre polynomial of degree N+1, and the length is reached by weights proportional to P_n at that root only. maxre_modal_weights(N) are P_n(r) at the approximate root r = cos(137.9 deg/(N+1.51)), scaled to unit response by UNITAMP, and their energy vector has length r - (N+1) P_N(r) P_{N+1}(r) / sum (2n+1) P_n(r)^2 exactly. butterworth_modal_weights decrease with order and are 1/sqrt(1+(n/n_c)^(2k)). unity_gain divides by the response on the axis.", "quantifier": "every order, every list of weights, every cut-on and filter order", "why_tests_cant": "The claim ranges over an infinite set of real inputs / sizes; a test samples finitely many.", "anchors": ["spaudiopy/sph.py:hypercardioid_modal_weights", "spaudiopy/sph.py:cardioid_modal_weights", "spaudiopy/sph.py:maxre_modal_weights", "spaudiopy/sph.py:butterworth_modal_weights", "spaudiopy/sph.py:unity_gain", "spaudiopy/sph.py:bandlimited_dirac"]}
{"id": "C114", "title": "MAD and EPAD rest on decompositions that always exist; when they are determined", "statement": "Every real matrix has a singular value decomposition and exactly one Moore-Penrose inverse, so the contracts assumed of numpy's svd and pinv can be met for every loudspeaker layout and order. decoder.mad is therefore a function of the layout: any two exact pinv give the same loudspeaker signals. decoder.epad is determined by the layout exactly when the harmonics at the loudspeakers have full rank; on the cube at order 2 (8 loudspeakers, 9 harmonics, rank below 8) two valid decompositions give different signals.", "quantifier": "every matrix, layout, order and signal", "why_tests_cant": "Existence for all matrices and uniqueness over all valid outputs of a library routine.", "anchors": ["spaudiopy/decoder.py:mad", "spaudiopy/decoder.py:epad"]}
{"id": "C115", "title": "Spectral methods rest on decompositions that always exist; what they owe to the choice of eigenvectors", "statement": "A real matrix has an eigenvalue decomposition with orthonormal eigenvectors exactly when it is symmetric; the sorted eigenvalues are unique, and so is every function of the matrix, whatever eigenvectors the solver returns. Hence estimate_num_sources and separate_cov (both parts, or the same error, for every num_cut including ties and the default) depend on the covariance only, not on the eigenvectors chosen. sh_music depends on the covariance only exactly when the number of sources does not split a repeated eigenvalue; for a diffuse field (identity covariance) two exact solvers give different pseudo-spectra.", "quantifier": "every symmetric covariance, cut, number of sources and direction grid; every pair of exact eigenvalue solvers", "why_tests_cant": "Existence for all matrices and agreement over all valid outputs of a library routine.", "anchors": ["spaudiopy/parsa.py:separate_cov", "spaudiopy/parsa.py:estimate_num_sources", "spaudiopy/parsa.py:sh_music"]}
{"id": "C116", "title": "MUSIC and LCMV tell up to 2N directions apart", "statement": "Harmonics of order N at up to 2N+1 distinct directions are linearly independent, and 2N+2 directions on one circle of latitude never are. For uncorrelated sources at distinct directions in white noise: the spectrum of the covariance has one eigenvalue above the noise power for each source (up to 2N+1 sources), separate_cov with num_cut equal to the number of sources returns exactly the covariance of the sources and the noise power times the identity, and sh_music, told the number of sources, reaches its maximum 1e11 exactly at the source directions for up to 2N sources. With 2N+1 sources on a circle of latitude it peaks along the whole circle. sh_lcmv with a positive definite covariance succeeds exactly when the harmonics at the constraint directions are independent: always for up to 2N+1 distinct directions, never for more than 2N+1 directions on a circle of latitude.", "quantifier": "every order, number, direction and power of sources, noise power, look-direction grid and exact eigenvalue solver", "why_tests_cant": "A sharp limit over all sets of directions; tests can only sample source positions.", "anchors": ["spaudiopy/parsa.py:sh_music", "spaudiopy/parsa.py:sh_lcmv", "spaudiopy/parsa.py:separate_cov", "spaudiopy/sph.py:sh_matrix"]}
{"id": "C117", "title": "firwin2 and what it does to the post equalizers", "statement": "For an odd number of taps and at least two gains firwin2 returns exactly the linear phase filter whose gains are the broken line through the given gains, read at the points k/M with M the next power of two, multiplied with the Hamming window; the filter is symmetric and linear in the gains, gains of one give the unit impulse, and wrong numbers of gains or of taps are rejected. Hence sdm_post_equalization returns matching signals unchanged with this design. For power complementary gains the energies of the filters add up to at most one, and to less than one as soon as two neighbouring gains differ: with the filter bank of sdm_post_equalization2 the filters are never power complementary, and an impulse whose spectra already match comes back weaker although every equalizer gain is one.", "quantifier": "every number of taps, every list of gains, every sampling rate from 32 kHz, every block size with separated bands, every impulse", "why_tests_cant": "The loss is a strict inequality between sums of cosines for every block size and sampling rate; a test with a tolerance would not notice it.", "anchors": ["spaudiopy/parsa.py:sdm_post_equalization", "spaudiopy/parsa.py:sdm_post_equalization2", "spaudiopy/process.py:frac_octave_filterbank"]}
{"id": "C118", "title": "The minimum phase equaliser of hrirs_ctf", "statement": "scipy.signal.minimum_phase, as hrirs_ctf calls it (homomorphic method), returns the first half of a filter whose response is exactly the exponential of the folded cepstrum of the lifted gains of its input: the filter is determined by that, it depends on the input only through the gains, scaling the input by c scales the output by sqrt|c|, inputs of at most two samples or of zeros only are rejected. With the fold of newer SciPy versions the gain of the untruncated filter at every bin is the square root of the lifted gain up to the cepstral coefficient at half the transform; older versions stop the fold earlier. Constant gains give a single first sample sqrt(a(1+1e-7)). Hence with this filter hrirs_ctf answers HRIR sets that are one pulse per direction with one first sample sqrt(1+1e-7) and apply_ctf_eq multiplies them with it; such sets are not returned exactly unchanged. For HRIRs of 2^j taps and newer SciPy the gains of the untruncated equaliser at the bins of C85 equal the corrections described there up to one common positive factor and a factor between 1 and sqrt(1+1e-7).", "quantifier": "for all inputs of any length, both SciPy variants, all HRIR sets and grid weights as stated", "why_tests_cant": "The claim ranges over an infinite set of real inputs / sizes; a test samples finitely many.", "anchors": ["spaudiopy/process.py:hrirs_ctf", "spaudiopy/process.py:apply_ctf_eq"]}
{"id": "C119", "title": "Every filter has its zeros and poles; the zero-pole drawing is determined", "statement": "Every coefficient list with a nonzero leading coefficient has as many complex roots as its degree, and the list of roots is unique up to order: a solver that meets the contract of np.roots exists, and any two of them draw the same zero-pole plot. A point is drawn exactly when the polynomial vanishes there, the drawing of a real filter is symmetric about the real axis, and the magnitude of the polynomial anywhere is the leading coefficient times the product of the distances to the drawn points. The matrix numpy hands to eigvals (the companion matrix) has exactly the roots of the polynomial as eigenvalues. A filter b/a without common roots is stable exactly when every root of a has modulus below one.", "quantifier": "every coefficient list, every point of the complex plane, every pair of exact root finders", "why_tests_cant": "The claim ranges over an infinite set of real inputs / sizes; a test samples finitely many.", "anchors": ["spaudiopy/plot.py:zeropole"]}
{"id": "C120", "title": "estimate_num_sources for sources in white noise", "statement": "For uncorrelated sources at distinct directions in white noise the variance tested by estimate_num_sources does not depend on the noise: it is sum_st p_s p_t K(s,t)^2/L - (sum p / 4pi)^2 with L=(N+1)^2 and K(s,t) = sum_n (2n+1)/(4pi) P_n(cos angle). Below the threshold the count is 0. So noise alone counts 0; sources whose powers add up to at most 1 are never counted at any order up to 11, whatever their number, directions and noise; one source of power 1 at order 12 in noise of power at most 1 is counted. Above it, for up to 2N+1 sources, the count is the number of sources exactly if the smallest signal eigenvalue exceeds a times noise power plus 1e-7 (for fewer than L-1 sources); otherwise it is smaller than the number of sources or L-1. For one source the three outcomes 0, 1 and L-1 are given by closed formulas. A loud noise floor makes one source count as L-1 = 3 at order 1.", "quantifier": "every order, number, direction and power of sources, noise power, threshold and exact eigenvalue solver", "why_tests_cant": "The claim ranges over an infinite set of real inputs / sizes; a test samples finitely many.", "anchors": ["spaudiopy/parsa.py:estimate_num_sources"]}
{"id": "C121", "title": "HRIR sets in memory: who hears a change", "statement": "HRIRs(left,right,azi,zen,fs) keeps the caller's arrays: a sample written into one of them, or through h[k] of any set that holds it, is heard in every set that holds it and in no other. h.copy() has the same values and arrays of its own: no program that names neither the copy (to change it) nor its arrays changes what the copy contains, and nothing done to the copy or its arrays changes another set. update_hrirs makes the set hold the new arrays, or raises and changes nothing. apply_ctf_eq makes new arrays and changes no existing one and no other set. nearest_hrirs hands out copies. After any program every set has as many responses as directions, and, if the two ears given to it always had equally many taps, as many samples as it states; otherwise apply_ctf_eq may raise ValueError with only the left ear equalised and the stated number of samples wrong.", "quantifier": "every program of constructions, copies, updates, equalisations and writes, of any length", "why_tests_cant": "The claim ranges over an infinite set of real inputs / sizes; a test samples finitely many.", "anchors": ["spaudiopy/sig.py:HRIRs.__init__", "spaudiopy/sig.py:HRIRs.copy", "spaudiopy/sig.py:HRIRs.update_hrirs", "spaudiopy/sig.py:HRIRs.apply_ctf_eq", "spaudiopy/sig.py:HRIRs.__getitem__", "spaudiopy/sig.py:HRIRs.nearest_hrirs"]}
{"id": "C122", "title": "VBAP on layouts around the listener: no silent direction, one set of gains", "statement": "If across each side of each valid triangle another one continues on the other side of the plane through the listener and the side, then every direction lies in the cone of some triangle, so decoder.vbap gives every source a nonzero gain and decoder_performance shows energy 1 in every direction of its grid; allrap2 gives every source the same energy; and with imaginary loudspeakers retained the energy of the real and imaginary ones adds up to 1. A convex layout without rim and with the listener inside, no corner lying in the plane of a triangle that it does not belong to, is such a layout. On a convex layout all triangles whose cone contains the source give the same loudspeaker gains, so the rows do not depend on the order of the triangles as long as they are not negative. With a hole there are silent directions; and because gains down to -1e-5 are accepted, a source next to a side can get a negative gain or none on the same loudspeaker depending on the order of the triangles.", "quantifier": "All loudspeaker positions, all lists of triangles with linearly independent corners, all nonzero sources, all norms, all schedules of the workers; convexity and closedness only where stated.", "why_tests_cant": "The claim ranges over an infinite set of real inputs / sizes; a test samples finitely many.", "anchors": ["spaudiopy/decoder.py:vbap", "spaudiopy/decoder.py:_vbap_gains_single_source", "spaudiopy/decoder.py:_invert_triplets", "spaudiopy/plot.py:decoder_performance"]}
{"id": "C123", "title": "Exact convex hulls close up: no silent direction after the constructor if it keeps all faces", "statement": "Let the loudspeakers be in general position (no four in a plane) with points of them in every half space around the listener, and let ConvexHull return exactly the faces of the convex hull in any order and orientation. Then there is at least one face, all faces have linearly independent corners, enclose the listener and close up without a rim, and sort_vertices keeps this. So if LoudspeakerSetup keeps all of them, in particular if the listener is the mean of the loudspeakers, vbap gives every source a nonzero gain, and rows without negative gains do not depend on which list of the faces ConvexHull returned. It need not keep them: there are such layouts with the listener inside where the constructor drops a face and a source in that direction is silent.", "quantifier": "All numbers and positions of loudspeakers in general position, all hull functions that return the exact faces, all nonzero sources, norms and schedules.", "why_tests_cant": "The claim ranges over an infinite set of real inputs / sizes; a test samples finitely many.", "anchors": ["spaudiopy/decoder.py:LoudspeakerSetup.__init__", "spaudiopy/decoder.py:get_hull", "spaudiopy/decoder.py:sort_vertices", "spaudiopy/decoder.py:check_listener_inside", "spaudiopy/decoder.py:vbap"]}
{"id": "C124", "title": "Panning gains move continuously with the source", "statement": "On a convex layout without rim and with the listener inside, and on the hull of loudspeakers in general position if the constructor keeps all its faces, the rows of decoder.vbap depend continuously on the position of the source for every norm, also where the source passes from one triangle to another, as long as the rows have no negative gains. In general they do not: gains down to -1e-5 are accepted, so there are sources on a convex layout with other sources arbitrarily close by whose gains differ by 5e-6 or more.", "quantifier": "All convex closed layouts, all nonzero sources, all norms of positive order and the maximum norm, all tolerances, all lists of sources of a call and all schedules of the workers.", "why_tests_cant": "The claim ranges over an infinite set of real inputs / sizes; a test samples finitely many.", "anchors": ["spaudiopy/decoder.py:vbap", "spaudiopy/decoder.py:_vbap_gains_single_source", "spaudiopy/decoder.py:_invert_triplets", "spaudiopy/decoder.py:LoudspeakerSetup.__init__"]}
{"id": "C125", "title": "Loudspeaker rendering with post equalisation; a source at rest loses low bands", "statement": "With post_eq_func='default' the binaural output of parsa.render_binaural_loudspeaker_sdm is the superposition of the equalised loudspeaker signals, attenuated with distance and convolved with the responses of their directions (channels below -100 dB skipped), and it warns exactly when samples up to the first kept one exceed 1e-4. For a source at rest, with nonnegative gains of unit power at the listener, every loudspeaker plays its gain times one and the same signal: the pressure minus the parts 1 - 1/(s G + 1 - s) of the three lowest octave bands, where G is the sum of the gains and s is 1, 1/2 and 1/4; the soft clipping does not matter. Nothing is removed exactly if a single loudspeaker plays. At 96 kHz the default equaliser fails. Without equaliser the result is the unequalised rendering with a warning; the signals of a caller's function are rendered as they are if the number of loudspeakers is right.", "quantifier": "All pressures, gains, setups, sets of HRIRs, sampling rates from 32 kHz to 1 MHz whose largest block is a multiple of four, all caller functions; spectra of the blocks of a source at rest are zero or at least 1e-9.", "why_tests_cant": "The claim ranges over an infinite set of real inputs / sizes; a test samples finitely many.", "anchors": ["spaudiopy/parsa.py:render_binaural_loudspeaker_sdm", "spaudiopy/parsa.py:sdm_post_equalization", "spaudiopy/decoder.py:LoudspeakerSetup.loudspeaker_signals", "spaudiopy/decoder.py:LoudspeakerSetup.binauralize"]}
{"id": "C126", "title": "Intensity panning reaches all directions and moves with the source", "statement": "On layouts whose triangles surround the listener (no rim, or the hull of loudspeakers in general position after the constructor), decoder.vbip gives every source away from the listener nonnegative gains of unit norm for every norm, and if amplitude panning has no negative gains the loudspeakers weighted by energy point exactly at the source; the plots of decoder_performance show energy one everywhere. On convex layouts the rows depend continuously on the source as long as amplitude panning has no negative gains. In general they do not: because the square root is taken after gains down to -1e-5 are accepted, there are sources with others arbitrarily close by whose gains differ by 0.003 or more.", "quantifier": "All closed layouts and hulls of loudspeakers in general position, all lists of nonzero sources, all norms of positive order and the maximum norm, all schedules of the workers, all tolerances.", "why_tests_cant": "The claim ranges over an infinite set of real inputs / sizes; a test samples finitely many.", "anchors": ["spaudiopy/decoder.py:vbip", "spaudiopy/decoder.py:vbap", "spaudiopy/decoder.py:LoudspeakerSetup.__init__", "spaudiopy/plot.py:decoder_performance"]}
{"id": "C127", "title": "RMS maps of complex signals", "statement": "plot.sh_rms_map draws complex signals with the root mean square of the moduli of the steered beams, for real and complex harmonics; without sh_type the data type of the array decides, and an unknown type raises ValueError and leaves the limits as they were. Plane waves with complex signals have their own RMS in their direction and no more anywhere. Coefficients in the complex basis are drawn exactly like those of the same functions in the real basis. Real coefficients in an array of complex numbers are not: the map of a source on the left then shows more in front than on the left.", "quantifier": "every signal, order, basis, weights, design and limits", "why_tests_cant": "The claim ranges over an infinite set of real inputs / sizes; a test samples finitely many.", "anchors": ["spaudiopy/plot.py:sh_rms_map", "spaudiopy/utils.py:rms", "spaudiopy/sph.py:sh_matrix"]}
{"id": "C128", "title": "The order calculate_grid_weights finds", "statement": "Without an order, calculate_grid_weights of fewer than 10000 points finds the greatest N such that all orders up to N are supported by the grid (the Gram matrix of the harmonics is regular and amplifies all vectors alike up to a factor of 2 (N + 1)). The weights returned integrate order N exactly, with the least energy of all that do, and N is within the bound (N + 1)^2 <= number of points. No supported order, as for fewer than four points, is an AssertionError. Grids with quadrature weights of degree 2 N within a factor of 4 of each other, such as t-designs, get at least the order N. The equal weights of designs are what is returned for orders up to half their degree, and for the order found if it is at most the degree. Grids that good up to order 99 do not get weights at all: the search ends without an order and the comparison raises TypeError; such grids exist.", "quantifier": "all grids, pseudo-inverses and condition numbers meeting their contracts", "why_tests_cant": "The claim ranges over an infinite set of real inputs / sizes; a test samples finitely many.", "anchors": ["spaudiopy/grids.py:calculate_grid_weights", "spaudiopy/sph.py:check_cond_sht"]}
{"id": "C129", "title": "The condition number check of the transform", "statement": "sph.check_cond_sht prints its message exactly if the Gram matrix of the harmonics is singular or amplifies some two vectors with factors further apart than the limit (limits up to 200). On grids with quadrature weights of degree 2 N the condition number is between 1 and the ratio of the largest to the smallest weight. On designs with equal weights it is 1, for real and complex harmonics, and nothing is printed for orders from 1 on. Complex harmonics have the same condition number as real ones on every grid (if the transform is singular, both are above 200), and the same message. Fewer points than coefficients always get the message. That the message means a high condition number is false at order 0: the default limit is 0 there, and every grid gets the message with the condition number 1.", "quantifier": "all grids, orders, limits and condition numbers meeting the contract", "why_tests_cant": "The claim ranges over an infinite set of real inputs / sizes; a test samples finitely many.", "anchors": ["spaudiopy/sph.py:check_cond_sht"]}
{"id": "C130", "title": "Transforms of noisy samples", "statement": "On grids with positive quadrature weights of degree 2 N and at most b, errors in the samples of a function of order N change the coefficients that sph.sht_lstsq recovers by at most b times the energy of the errors, for every signal on its own; the coefficients of any samples have at most b times their energy. On designs with equal weights sht_lstsq and sht give the same coefficients for all samples, also of functions beyond order N. With quadrature weights of degree 2 N, sht of any samples gives the function of order N with the least weighted squared distance from them (the distance of every other one is larger by the energy of the difference of the coefficients), and the coefficients have at most the weighted energy of the samples.", "quantifier": "every grid with such weights, order, samples and least-squares solver", "why_tests_cant": "The claim ranges over an infinite set of real inputs / sizes; a test samples finitely many.", "anchors": ["spaudiopy/sph.py:sht_lstsq", "spaudiopy/sph.py:sht", "spaudiopy/sph.py:inverse_sht"]}
{"id": "C131", "title": "The warning about grid weights", "statement": "calculate_grid_weights warns, for an order whose harmonics are independent on the grid and for every order it finds by itself, exactly if some weight is negative: the sum is always right. Designs of twice the order get their equal weights without a warning. A single point at any order N from 1 on gets the weight 4 pi / (N + 1)^2, and the warning.", "quantifier": "all grids, orders and pseudo-inverses", "why_tests_cant": "The claim ranges over an infinite set of real inputs / sizes; a test samples finitely many.", "anchors": ["spaudiopy/grids.py:calculate_grid_weights"]}
