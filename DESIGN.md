# spaudiopy: formal model and proofs

The code under study is `/repo/spaudiopy/*.py` (pure Python on numpy/scipy).
It was read as text only; nothing was built or run.  The model is in
`rocq/theories`, written for Coq 8.16.1 with its standard library and nothing else.

## 1. How the code is modelled

* **Numbers.** `float64` values are idealised as Coq's real numbers `R`
  (stdlib `Reals`).  Rounding, overflow, signed zero and denormals are *not*
  modelled.  NaN and minus infinity are modelled where a branch of the code or a
  claim depends on them (0/0 in the filter-bank transition, `nan_to_num` in
  `r_E`, silent signals, empty means, `log10(0)`), as explicit cases, not as the
  totalised `x/0 = 0` of Coq.
* **Integers, indices, counts** are `nat` or `Z`; Python slicing with negative
  and out-of-range indices is modelled in `Base.v` (`norm_idx`, `slice`).
* **Exceptions** are values: `res A := Ok a | Err e`.
* **Arrays.**  1-D arrays are lists.  2-D arrays are lists of rows
  (bookkeeping code: slices, channels, blocks) or the record `mat` (shape and
  an entry function; linear-algebra code).  `mat` operations check shapes and
  return `Err ValueError` on a mismatch, as numpy does.
* **Complex numbers** are pairs of reals.
* **Loops** are folds or structural recursion; `while` loops take fuel, and
  running out of fuel is a distinct error value (theorems show it does not happen).
* **State** (objects, caches, aliased arrays) is an explicit record or heap that
  every method maps to a new one; histories are lists of operations.  Three heaps are
  used: `M_decoder3.v` for the arrays of a loudspeaker setup, `M_sig2.v` for signals
  whose arrays view shared buffers, `M_hmem.v` for sets of HRIRs.
* **Worker processes** are a small-step interleaving semantics over the shared
  array; theorems quantify over every schedule.
* **External calls** (`scipy`, `numpy.linalg`, file access) are parameters of
  the model functions (oracles).  What a theorem needs of them is a hypothesis
  of that theorem, written out in the statement.  Where the standard library can
  define the function itself it is defined: FFTs of any length, convolution,
  `lfilter`, `filtfilt`, Butterworth band-passes, Legendre and spherical Bessel functions, Hann windows, `np.unwrap`.

## 2. Layout

| file | content |
|---|---|
| `Base.v` | results, Python slices, finite sums, matrices (definitions) |
| `BaseFacts.v` | lemmas about them |
| `M_<module>*.v` | model of `/repo/spaudiopy/<module>.py`; every definition cites its lines |
| `S_<module>*.v` | specifications, written without the model's helpers |
| `P_<...>.v` | proofs |
| `X_<...>.v` | proofs in their final form, examples and counterexamples |
| `C_<...>.v` | property theorems only: `exact lemma.` and `Print Assumptions`, plus the examples that meet the hypotheses |

`seeded/LOG.jsonl` records the wrong programs the theorems were tried against.

## 3. Properties

For each property: what is modelled, and how it is proved.  The status of each is
in `MANIFEST.json`; theorem names start with the property id (`C01_...`).
Theorems named `..._refuted` state what the code does *not* do, with a witness.

| id | modelled | proof |
|---|---|---|
| C01 | `cart2sph`, `sph2cart`, `cart2dir`, `dir2cart` over R with `arctan2` by cases on stdlib `atan` | trigonometric identities, case split on the quadrant |
| C02 | `haversine`, `angle_between` | half-angle identities, injectivity of `cos` on [0,pi] |
| C03 | `rotation_euler` as product of 3x3 matrices | polynomial identities modulo cos^2+sin^2=1 |
| C04 | `rotation_rodrigues`, both branches | same, plus counterexample for the identity branch |
| C05 | `rotation_vecvec` with its ValueError branch | Lagrange identity, `cos (acos x) = x` |
| C06 | `deg2rad`, `rad2deg` with Python's real `%` | `Int_part` facts |
| C07 | `db`, `from_db` | `ln`/`exp` |
| C08, C09, C10 | `interleave_channels`, `stack`, `asarray_1d` on lists with shapes | list induction |
| C11 | `sh_rotation_matrix` (recursion with u,v,w and P helpers), `rotate_sh`, `sh_matrix` | real solid harmonics as polynomials; induction over the order |
| C12, C17 | modal weights, `sh_beamformer_from_pattern`, `bandlimited_dirac` | addition theorem by the Legendre and solid-harmonic recurrences; telescoping sums |
| C13, C18 | `n3d_to_sn3d`, `sn3d_to_n3d`, `repeat_per_order` | ACN indexing by induction |
| C14, C20 | `sh_to_b`, `b_to_sh`, `soundfield_to_b` | finite matrix algebra |
| C15, C16 | `sht`, `inverse_sht`, `design_sph_filterbank` | matrix algebra over all sizes |
| C19 | `r_E` incl. `nan_to_num` branch | convexity, Cauchy-Schwarz |
| C21 | `equal_angle`, `gauss`, `equal_polar_angle` | discrete trigonometric orthogonality by induction |
| C22 | loaders, with the table of available keys | recursion on distance to next key; finite table lifted |
| C23 | `calculate_grid_weights` with the pinv oracle | matrix algebra |
| C24 | `frac_octave_filterbank` band edges, transitions, slice assignments | induction over bands; sin^2+cos^2 |
| C25 | `lagrange_delay` double loop | refinement to the Lagrange product; uniqueness of interpolation |
| C26-C31 | scalar DSP helpers in `process.py` | real analysis / list induction |
| C32-C34, C45 | worker pools as interleavings | commutation (disjoint rows or locked commutative adds) |
| C35, C42 | SDM renderers | fold refinement to the double sum |
| C36, C37, C43 | eigenvalue post-processing with the eigen-decomposition as an oracle | sums of rank-one terms |
| C38, C39 | MVDR, LCMV | Lagrange-multiplier identity, completing the square |
| C40, C41 | block bookkeeping of the post-equalisers | integer arithmetic, Hann overlap identity |
| C44, C47 | `vbap` scan over triangles, `vbip` | scan induction, inverse matrix |
| C46 | `hull` record with cached inverse; history of `vbap`/`pop_triangles` calls | invariant over histories and a witness of stale reuse |
| C48 | `pop_triangles` and the four filters | sub-list invariant over histories |
| C49 | edge counting of `find_imaginary_loudspeaker` | parity argument on triangles |
| C50, C51, C53 | decoders with VBAP gains / SVD / pinv as oracles | matrix algebra, addition theorem |
| C52, C60 | arg-max searches | first-maximum specification |
| C54 | `sort_vertices`, face normals | list and vector algebra |
| C55 | heap of arrays with aliasing | two-construction history |
| C56, C57 | convolution sums with gate/squeeze branches | list algebra, triangle inequality |
| C58, C59, C61 | `sig.py` classes as records, histories of methods | invariants |
| C62 | layout records with rounding | rounding facts |
| C63-C65 | file oracles and index arithmetic | list algebra, integer arithmetic |
| C66 | `itds_from_hrirs` after its filters: onset and cross-correlation search | first-maximum specification, Cauchy-Schwarz for shifted copies |
| C67 | `sh_matrix` real and complex | Legendre recurrences against the documented closed forms |
| C68 | `sh_rotation_matrix` of products and inverses | determination by values at directions; uniqueness of harmonic expansions |
| C69 | `sht_lstsq` with the least-squares oracle | normal equations, full rank |
| C70, C75 | `sh_mult`, `sh_sector_beamformer` with the t-design oracle | band-limited products, exact designs |
| C71 | `project_on_sphere` | vector algebra |
| C72 | `equal_angle`, `gauss` with `sht`, `inverse_sht` | discrete orthogonality of all harmonics up to the order |
| C73 | `characteristic_ambisonic_order`, `ambisonics_setup` | ceiling arithmetic, convexity of energy vectors |
| C74 | `loudspeaker_signals`, all shapes | list algebra |
| C76 | `pseudo_intensity`, `src_to_b` | window sums, linear algebra |
| C77 | `render_binaural_loudspeaker_sdm` | superposition of convolutions |
| C78, C79, C80 | `load_hrirs`, `load_sdm`, `load_sofa_hrirs`, `sofa_to_sh` with file contents as records | case analysis on the files, list algebra |
| C81, C82 | `spherical_hn2`, `mode_strength`, `pressure_on_sphere`, `binaural_coloration_compensation` | spherical Bessel recurrences, Wronskian |
| C83, C84 | `magls_bin`: FFT, bins, continuation, back to time | loop invariant over the bins, DFT inversion, unwrapping |
| C85, C86, C87 | `hrirs_ctf`, `apply_ctf_eq`, `resample_spectrum` | DFT and window facts, convolution algebra |
| C88, C92 | `spectrum`, `freq_resp`, `transfer_function`, `polar` | DFT of partials, case analysis |
| C89 | `spherical_function_map`, `doa`, `hrirs_ild_itd` on arrays in memory | heap reasoning, angles modulo a turn |
| C90 | `sh_rms_map` with its block loop and its default list | loop invariant, RMS of beams |
| C91 | `decoder_performance` with all ten renderers | matrix algebra, energy vectors |
| C93 | `hull`, `sh_coeffs`, `spherical_function`, `set_aspect_equal3d`, `sh_bar` | list algebra |
| C94, C95, C96 | the signal classes on a memory of buffers, views and objects; `copy.deepcopy` with its memo | separation, simulation between the memory and the value model, invariants over all call histories |
| C97 | `lfilter` (transposed direct form II), `ambeo_a2b`, `b_to_stereo` | state invariant of the filter, uniqueness of the difference equation, linearity |
| C98 | `get_default_hrirs` | composition of the transforms, every schedule of the resampling pool |
| C99 | `np.roots`, `zeropole` | factorisation of polynomials, impulse responses as cascades of geometric series; converse by Abel summation against a pole |
| C100 | `sh_coeffs_overlay`, `sh_coeffs_subplot`, complex balloons | harmonic expansions, induction over the sets |
| C101 | `test_diff`, `compare_ambi`, `hull_normals`, barycenter and vertex normals | sums of absolute values, vector algebra |
| C102 | `filtfilt`, `sosfiltfilt` with odd extension and steady-state start | the filter's steady state, linearity, symmetry of the reversed filter, decay of the transient |
| C103 | `butter(2, ..., 'bandpass')`: analogue prototype, band transformation, bilinear transform, both output forms | complex polynomial algebra; the warped frequency axis; poles inside the circle by a half-plane argument |
| C104 | `ilds_from_hrirs`, `itds_from_hrirs`, `pseudo_intensity` with their band-pass filters | homogeneity and mirror symmetry of the filtered signals, unique maxima of correlations |
| C105 | constructors, `from_file`, `get_signals`, item access and `sh_to_b` on the memory of C94-C96 | the specifications of allocation, views of rows and columns |
| C106 | `sht`, `inverse_sht`, `sht_lstsq`, `src_to_sh` with `sh_type='complex'` | the unitary matrix between the two bases; normal equations over the complex numbers |
| C107 | `design_sph_filterbank`, `sh_mult`, `sofa_to_sh` with `sh_type='complex'`; mode `pinv` | Penrose equations carried over by the unitary matrix; products of spans |
| C108 | `check_listener_inside`, `calculate_barycenter`, `calculate_centroids` | law of cosines at the centroid; two leaning tetrahedra as witnesses |
| C109 | `HRIRs.__init__`, `__len__`, `__getitem__`, `update_hrirs`, `nearest_idx`, `nearest_hrirs` | induction over update histories; list indexing |
| C110 | `rms`, `area_triangle`, `subband_levels`, `resample_signal` | sums of squares; Heron's formula; lane-wise resampling |
| C111 | `vbap`, `vbip` with `retain_outside` | deletion by index as a map over the real loudspeakers; linear independence on a face |
| C112 | `gauss` on numpy's `leggauss` (`legcompanion`, `legval`, `legder`) | interlacing roots by induction and the intermediate value theorem; Christoffel-Darboux kernel; orthogonality from Legendre's equation; eigenvectors of the companion matrix |
| C113 | `hypercardioid_modal_weights`, `cardioid_modal_weights`, `maxre_modal_weights`, `butterworth_modal_weights`, `unity_gain`, `bandlimited_dirac` | orthogonality of Legendre polynomials, Cauchy-Schwarz, Gauss quadrature at the roots, Christoffel-Darboux |
| C114 | `mad`, `epad` with exact `pinv`, `svd` | largest image of a unit vector by compactness, Householder reflections, induction on the size; uniqueness of positive roots; a parity vector on the cube |
| C115 | `separate_cov`, `estimate_num_sources`, `sh_music` with exact `eigh`, `eigvalsh` | shift to a positive matrix, its singular value decomposition and uniqueness of roots; functions of a matrix; rotation of two eigenvectors of a repeated eigenvalue |
| C116 | `sh_music`, `sh_lcmv`, `separate_cov`, `sh_matrix` | products of planes through pairs of directions are band-limited (multiplication of harmonics by linear functions); kernel of a wide matrix from its singular value decomposition; harmonics on a circle of latitude are trigonometric |
| C117 | `firwin2` (scipy), `frac_octave_filterbank`, `sdm_post_equalization`, `sdm_post_equalization2` | invariant over the bands; broken line through the gains; energy of a kernel on an even grid (Parseval); strict convexity of the square between two gains |
| C118 | `minimum_phase` (scipy), `hrirs_ctf`, `apply_ctf_eq` | real and even cepstra; folding a cepstrum keeps the gain; discrete Fourier transform of a constant; inversion of the transform |
| C119 | `zeropole`, `np_roots`, `companion` (numpy) | least modulus of a polynomial on a disk, n-th roots by de Moivre, descent; factorisation by induction on the degree; eigenvectors of the companion matrix by powers of the root |
| C120 | `estimate_num_sources`, `count_from_eigenvalues` | trace and Frobenius norm of the covariance through projections on the eigenvectors; addition theorem; first jump of the sorted eigenvalues |
| C121 | `HRIRs` as objects holding references: `__init__`, `copy` (deepcopy memo), `update_hrirs`, `apply_ctf_eq`, `h[k]`, `nearest_hrirs` | effects of every command; frame and ownership invariants by induction over programs; refinement of the value models |
| C122 | `vbap`, `decoder_performance` on closed layouts | path from a triangle to the source avoiding all corners; last covered point; supporting planes; Cramer's rule |
| C123 | `LoudspeakerSetup.__init__`, `sort_vertices`, `check_listener_inside`, `vbap` with a contract for ConvexHull | gift wrapping: a largest direction around each side of a face; a first face by turning a plane; tetrahedra as cases |
| C124 | `vbap` as a function of the source position | continuity in three variables; norms of any order are continuous; pasting over finitely many closed cones; the threshold on the octahedron |
| C125 | `render_binaural_loudspeaker_sdm` with `sdm_post_equalization` | equal spectra up to factors give the same gain in every bin; constant gains leave windows that add up to one; the filter bank adds up to an impulse |
| C126 | `vbip`, `decoder_performance` on closed layouts | some gain is positive; norms and roots continuous in all entries of a list by induction; witness at the tolerance on the octahedron |
| C127 | `sh_rms_map`, any `sh_type` and data type | blocks as in C90 with moduli; pairs of complex harmonics of an order add up to those of the real ones; witness of order 1 |
| C128 | `calculate_grid_weights` without an order, `check_cond_sht` | the search stops at the first order not supported; (N+1)^2 columns cannot be independent on fewer points; quadrature weights within a factor of 4 bound the Gram matrix from both sides; the witness repeats points of `equal_angle(99)` |
| C129 | `check_cond_sht` with both types and limits | frame bounds of C128; Gram matrices of designs are multiples of the identity; complex arrays as real ones of twice the size; the change of basis keeps norms, is onto and commutes with the Gram matrices |
| C130 | `sht_lstsq`, `sht` on samples with errors | expanding the weighted distance; the fitted samples have no more energy than the errors; frame bounds of C128; Gram matrices of designs are multiples of the identity |
| C131 | `calculate_grid_weights` with its warning | weights that integrate the constant add up to 4 pi; the pseudo-inverse of one row from the Penrose equations and Unsoeld's theorem |

## 4. Trusted base

* Coq's kernel (8.16.1) and its standard library.
* The axioms `Print Assumptions` lists (section 6); all of them belong to the
  Coq standard library's real numbers and classical logic.  No axiom, parameter,
  `Admitted` or open obligation is added.
* The reading of the Python code: each definition cites the lines it models.
* The idealisations of section 1.
* What is assumed of numpy, scipy and other libraries where their functions are
  modelled as definitions (FFT, convolution, `lfilter`, `filtfilt`, `sosfiltfilt`,
  second-order Butterworth design, `leggauss`, `firwin2`, `argmax`, slices) or enter
  as parameters with hypotheses (`inv`, `pinv`, `svd`, `eigh`, `eigvalsh`, `lstsq`,
  `eigvals`, `cond`, `ConvexHull`, `resampy.resample`, `minimum_phase`,
  tables and files).  That a function as assumed exists is proved for `pinv` and
  `svd` (C114), for `eigh` and `eigvalsh` (C115) and for `eigvals` of companion
  matrices (C119) and for `cond` (C128), for every size.  `ConvexHull` is any function in most claims;
  where its faces matter they are hypotheses, and C123 takes as contract that it
  returns the exact faces of points in general position.

## 5. What is modelled, and what is not

Every function of the package with the model file that cites its lines (`-`: no
model).

**decoder.py**: `LoudspeakerSetup.__init__` (49-109) `M_decoder`, `M_decoder3`, `M_misc`; `LoudspeakerSetup.from_sph` (112-129) `M_decoder3`; `LoudspeakerSetup.is_simplex_valid` (131-136) `M_decoder`; `LoudspeakerSetup.pop_triangles` (138-158) `M_decoder`; `LoudspeakerSetup.get_characteristic_order` (160-168) `M_decoder2`; `LoudspeakerSetup.ambisonics_setup` (170-246) `M_decoder2`; `LoudspeakerSetup.binauralize` (248-290) `M_decoder3`; `LoudspeakerSetup.loudspeaker_signals` (292-311) `M_decoder2`; `LoudspeakerSetup.show` (313-315) `M_decoder`; `get_hull` (318-320) `M_decoder`; `calculate_centroids` (323-330) `M_decoder`; `calculate_face_areas` (333-339) `M_decoder`; `calculate_face_normals` (342-360) `M_decoder`; `calculate_vertex_normals` (363-377) `M_decoder`, `M_plot2`; `calculate_barycenter` (380-382) `M_misc`, `M_plot2`; `check_listener_inside` (385-401) `M_decoder`, `M_misc`; `check_normals` (404-417) `M_decoder`; `check_aperture` (420-436) `M_decoder`; `check_opening` (439-453) `M_decoder`; `apply_blacklist` (456-465) `M_decoder`; `sort_vertices` (468-474) `M_decoder`; `find_imaginary_loudspeaker` (477-520) `M_decoder`; `_invert_triplets` (523-531) `M_decoder`; `_vbap_gains_single_source` (535-546) `M_decoder`; `vbap` (549-657) `M_decoder`; `vbip` (660-711) `M_decoder`; `characteristic_ambisonic_order` (714-741) `M_decoder2`; `allrap` (744-826) `M_decoder2`; `allrap2` (829-915) `M_decoder2`; `allrad` (918-1000) `M_decoder2`; `allrad2` (1003-1072) `M_decoder2`; `sad` (1075-1126) `M_decoder2`; `mad` (1129-1180) `M_decoder2`; `epad` (1183-1252) `M_decoder2`; `nearest_loudspeaker` (1255-1292) `M_decoder`; `sh2bin` (1295-1323) `M_decoder3`; `magls_bin` (1326-1468) `M_decoder4`; `_create_shared_array` (1472-1476) `M_decoder`; `_init_shared_array` (1479-1483) `M_decoder`.

**grids.py**: `calculate_grid_weights` (22-58) `M_cond`, `M_grids`, `M_warn`; `load_t_design` (61-110) `M_grids`; `load_n_design` (113-156) `M_grids`; `load_lebedev` (159-206) `M_grids`; `load_Fliege_Maier_nodes` (209-256) `M_grids`; `load_maxDet` (259-306) `M_grids`; `equal_angle` (309-352) `M_grids`; `gauss` (355-392) `M_grids`, `M_lgauss`; `equal_polar_angle` (395-413) `M_grids`.

**io.py**: `load_audio` (30-70) `M_io`; `save_audio` (73-111) `M_io`; `load_hrirs` (114-190) `M_io`; `get_default_hrirs` (193-280) `M_io3`; `load_sofa_data` (283-290) `M_io`; `load_sofa_hrirs` (293-327) `M_io`; `sofa_to_sh` (330-355) `M_io2`, `M_sph3`; `load_sdm` (358-400) `M_io`; `write_ssr_brirs_loudspeaker` (403-468) `M_io`; `write_ssr_brirs_sdm` (471-515) `M_io`; `load_layout` (518-558) `M_io`; `save_layout` (561-593) `M_io`.

**parsa.py**: `sh_beamformer_from_pattern` (41-80) `M_parsa`; `sh_beamform` (83-116) `M_parsa`; `estimate_num_sources` (119-155) `M_parsa`; `separate_cov` (158-205) `M_parsa`; `sh_music` (208-249) `M_parsa`; `sh_mvdr` (252-301) `M_parsa`; `sh_lcmv` (304-357) `M_parsa`; `sh_sector_beamformer` (360-387) `M_parsa`; `_intensity_sample` (391-397) `M_parsa2`; `pseudo_intensity` (400-486) `M_parsa2`, `M_process4`; `render_stereo_sdm` (489-518) `M_parsa2`; `_render_bsdm_sample` (522-527) `M_parsa2`; `render_bsdm` (530-584) `M_parsa2`; `render_binaural_loudspeaker_sdm` (587-631) `M_parsa2`, `M_render`; `sdm_post_equalization` (634-783) `M_parsa3`, `M_render`; `sdm_post_equalization2` (786-946) `M_parsa3`; `_create_shared_array` (950-954) `M_parsa2`; `_init_shared_array` (957-961) `M_parsa2`.

**plot.py**: `spectrum` (25-61) `M_plot`; `freq_resp` (64-125) `M_plot`; `transfer_function` (128-149) `M_plot`; `zeropole` (152-177) `M_zp`; `compare_ambi` (180-199) `M_plot2`; `spherical_function` (202-254) `M_plot`; `sh_coeffs` (257-329) `M_plot`, `M_plot2`; `sh_coeffs_subplot` (332-366) `M_plot2`; `sh_coeffs_overlay` (369-444) `M_plot2`; `sh_rms_map` (447-536) `M_crms`, `M_plot`; `spherical_function_map` (539-590) `M_plot`; `sh_bar` (593-671) `M_plot`; `hull` (674-779) `M_plot`; `hull_normals` (782-833) `M_plot2`; `polar` (836-871) `M_plot`; `decoder_performance` (874-1006) `M_plot`; `doa` (1009-1095) `M_plot`; `hrirs_ild_itd` (1098-1183) `M_plot`; `set_aspect_equal3d` (1186-1216) `M_plot`.

**process.py**: `resample_hrirs` (25-73) `M_process`; `resample_signal` (76-96) `M_misc`, `M_sig`, `M_sig2`; `resample_spectrum` (99-121) `M_process2`; `hrirs_ctf` (124-194) `M_process2`; `ilds_from_hrirs` (197-228) `M_process`, `M_process4`; `itds_from_hrirs` (231-271) `M_process`, `M_process4`; `match_loudness` (274-297) `M_process`; `ambeo_a2b` (300-324) `M_process3`; `b_to_stereo` (327-341) `M_process`, `M_process3`; `lagrange_delay` (344-366) `M_process`; `frac_octave_smoothing` (369-398) `M_process`, `M_process2`; `frac_octave_filterbank` (401-544) `M_process`; `subband_levels` (547-557) `M_misc`, `M_parsa3`; `energy_decay` (560-573) `M_process`; `half_sided_Hann` (576-583) `M_process`; `gain_clipping` (586-618) `M_process`; `pulsed_noise` (621-676) `M_process`.

**sig.py**: `MonoSignal.__init__` (37-47) `M_sig`, `M_sig2`; `MonoSignal.__len__` (49-51) `M_sig`, `M_sig2`; `MonoSignal.__getitem__` (53-55) M_sig2.v (KItem); `MonoSignal.signal` (62-63) `M_misc`, `M_sig`, `M_sig2`; `MonoSignal.fs` (66-67) M_sig2.v (reads the field); `MonoSignal.from_file` (70-80) `M_sig2`; `MonoSignal.copy` (82-84) `M_sig2`; `MonoSignal.save` (86-88) M_io.v (save_audio); `MonoSignal.trim` (90-97) `M_sig`, `M_sig2`; `MonoSignal.apply` (99-101) `M_sig`; `MonoSignal.conv` (103-107) `M_sig`, `M_sig2`; `MonoSignal.resample` (109-115) `M_sig`, `M_sig2`; `MonoSignal.play` (117-121) -; `MultiSignal.__init__` (127-145) `M_sig`, `M_sig2`; `MultiSignal.num_channels` (148-149) `M_sig`; `MultiSignal.signals` (152-153) M_sig2.v (reads the field); `MultiSignal.__len__` (155-157) `M_sig`, `M_sig2`; `MultiSignal.__getitem__` (159-161) M_sig2.v (reads a channel); `MultiSignal.from_file` (164-174) `M_sig2`; `MultiSignal.get_signals` (176-178) `M_sig`, `M_sig2`; `MultiSignal.trim` (180-188) `M_sig`, `M_sig2`; `MultiSignal.apply` (190-193) `M_sig`; `MultiSignal.conv` (195-199) `M_sig`, `M_sig2`; `MultiSignal.resample` (201-208) `M_sig`, `M_sig2`; `MultiSignal.play` (210-214) -; `AmbiBSignal.__init__` (219-225) `M_sig`, `M_sig2`; `AmbiBSignal.from_file` (228-230) `M_sig2`; `AmbiBSignal.sh_to_b` (233-240) `M_sig2`; `HRIRs.__init__` (246-275) `M_hmem`, `M_io`, `M_sig`; `HRIRs.__len__` (277-279) `M_misc`, `M_sig`; `HRIRs.__getitem__` (281-283) `M_hmem`, `M_misc`, `M_sig`; `HRIRs.copy` (285-287) `M_hmem`; `HRIRs.update_hrirs` (289-305) `M_hmem`, `M_misc`; `HRIRs.nearest_hrirs` (307-329) `M_hmem`, `M_misc`, `M_sig`; `HRIRs.nearest_idx` (331-351) `M_misc`, `M_sig`; `HRIRs.apply_ctf_eq` (353-373) `M_hmem`, `M_process2`; `trim_audio` (376-384) `M_sig`, `M_sig2`.

**sph.py**: `sh_matrix` (27-112) `M_crms`, `M_grids`, `M_sph`, `M_sph0`; `sht` (115-154) `M_sph`; `sht_lstsq` (157-187) `M_sph`, `M_sph3`; `inverse_sht` (190-219) `M_io3`, `M_sph`; `sh_rotation_matrix` (222-373) `M_sph`; `sh_rotation_matrix._rot_p_func` (280-292) `M_sph`; `sh_rotation_matrix._rot_u_func` (294-295) `M_sph`; `sh_rotation_matrix._rot_v_func` (297-314) `M_sph`; `sh_rotation_matrix._rot_w_func` (316-325) `M_sph`; `rotate_sh` (376-426) `M_sph`; `check_cond_sht` (429-439) `M_cond`, `M_grids`; `n3d_to_sn3d` (442-465) `M_sph`; `sn3d_to_n3d` (468-491) `M_sph`; `platonic_solid` (494-501) `M_sph`; `sh_to_b` (504-528) `M_sph`; `b_to_sh` (531-557) `M_sph`; `soundfield_to_b` (560-581) `M_sph`; `src_to_b` (584-592) `M_sph`; `src_to_sh` (595-633) `M_sph`, `M_sph3`; `bandlimited_dirac` (636-692) `M_sph`, `M_sph0`; `max_rE_weights` (695-729) `M_sph`, `M_sph0`; `r_E` (732-763) `M_sph`; `project_on_sphere` (766-770) `M_sph`; `repeat_per_order` (773-788) `M_sph`; `spherical_hn2` (791-815) `M_sph2`; `mode_strength` (818-848) `M_sph2`; `pressure_on_sphere` (851-881) `M_sph2`; `binaural_coloration_compensation` (884-951) `M_sph2`; `unity_gain` (954-976) `M_sph`; `hypercardioid_modal_weights` (979-1009) `M_sph`; `cardioid_modal_weights` (1012-1048) `M_sph`; `maxre_modal_weights` (1051-1084) `M_sph`; `butterworth_modal_weights` (1087-1128) `M_sph`; `sph_filterbank_reconstruction_factor` (1131-1166) `M_sph`, `M_sph3`; `design_sph_filterbank` (1169-1258) `M_sph`, `M_sph3`; `sh_mult` (1261-1299) `M_sph`, `M_sph3`.

**utils.py**: `asarray_1d` (17-30) `M_decoder3`, `M_hmem`, `M_sig2`, `M_utils`; `deg2rad` (33-35) `M_utils`; `rad2deg` (38-40) `M_utils`; `cart2sph` (43-54) `M_utils`; `sph2cart` (57-65) `M_utils`; `matlab_sph2cart` (68-74) `M_utils`; `cart2dir` (77-80) `M_utils`; `dir2cart` (83-85) `M_utils`; `vec2dir` (88-91) `M_utils`; `angle_between` (94-104) `M_utils`; `rotation_euler` (107-117) `M_utils`; `rotation_rodrigues` (120-131) `M_utils`; `rotation_vecvec` (134-144) `M_utils`; `haversine` (147-186) `M_utils`; `area_triangle` (189-191) `M_utils`; `db` (194-206) `M_utils`; `from_db` (209-219) `M_utils`; `rms` (222-232) `M_misc`, `M_utils`; `stack` (235-247) `M_utils`; `test_diff` (250-264) `M_plot2`; `interleave_channels` (267-284) `M_utils`.

Not modelled:

* rounding of floating-point arithmetic; FFT-based convolution is exact convolution;
* the algorithms behind the parameters listed in section 4;
* the byte formats of files (wav, sofa, json, mat, pickle): files are records of
  the values read or written;
* drawing itself: `plot.py` is modelled up to the numbers handed to matplotlib,
  without ticks, labels, colour maps and layout;
* playback (`play`), printing, warnings, progress bars and random numbers (results
  that depend on them take the drawn values as arguments);
* the start-up protocol of worker processes: a pool is its tasks, its shared memory
  and every order of their steps.

## 6. Assumptions per theorem

What `Print Assumptions` prints, by file.  The names are

* A1 = `ClassicalDedekindReals.sig_forall_dec`
* A2 = `ClassicalDedekindReals.sig_not_dec`
* A3 = `ClassicalEpsilon.constructive_indefinite_description`
* A4 = `Classical_Prop.classic`
* A5 = `FunctionalExtensionality.functional_extensionality_dep`

and nothing else occurs.

**C_utils.v**

* closed under the global context: `C08_interleave`, `C08_interleave_rejects`, `C09_stack_wide`, `C09_stack_tall`, `C09_stack_rejects_other_shapes`, `C09_stack_shared_dimension_refuted`, `C09_stack_vectors`, `C10_asarray_1d`, `C10_asarray_1d_idempotent`
* A1, A5: `C03_rotation_matrix_orthogonal`
* A1, A2, A5: `C03_rotation_euler_is_rotation`, `C03_rotation_euler_meaning`, `C04_rodrigues_turns_about_axis`, `C04_rodrigues_small_or_negative_is_identity`, `C06_deg_rad`
* A1, A2, A4, A5: `C01_cart_sph_cart`, `C01_sph_cart_sph`, `C01_ranges`, `C01_dir_functions`, `C02_haversine_is_central_angle`, `C02_haversine_metric`, `C02_angle_between`, `C04_rodrigues_negative_angle_refuted`, `C05_rotation_vecvec`, `C05_rotation_vecvec_accuracy`, `C05_rotation_vecvec_same_vector_raises`, `C07_from_db_db`, `C07_db_from_db`, `C07_db_laws`, `C07_value`

**C_sig.v**

* closed under the global context: `C59_single_channel_resample_splits`, `C59_ambib_after_init`, `C59_resample_values`, `C61_apply_ignores_the_signal`, `C61_multi_apply_same_in_all_channels`, `C61_apply_values`
* A1: `C59_conv_with_too_few_filters_refuted`
* A1, A5: `C58_mono_trim`, `C58_multi_trim_and_trim_audio`, `C58_negative_start_refuted`, `C59_multi_consistent`, `C59_ambib_after_resample`, `C59_ambib_stale_refuted`, `C59_conv_values`, `C61_apply_to_signal_refuted`
* A1, A2, A4, A5: `C60_nearest_is_first_closest`

**C_process.v**

* A1, A5: `C25_exact_on_polynomials`, `C25_unit_dc_gain`, `C25_integer_delay`, `C32_jobs_equivalent`, `C32_no_jobs_gives_zeros`, `C32_zero_jobs_refuted`, `C66_itd_of_pure_delay`
* A1, A2, A5: `C27_match_loudness`, `C27_silent_input`, `C29_half_sided_Hann`, `C29_too_short`, `C31_independent_of_pause`, `C31_pulse_train`, `C31_normalized_peak`, `C31_pause_duration_refuted`
* A1, A2, A4, A5: `C24_filterbank_complementary`, `C24_filterbank_default_limit`, `C24_band_limits_tile`, `C24_terminates`, `C24_nonpositive_f_low_never_returns`, `C24_transition_beyond_spectrum`, `C24_default_limit_fails_refuted`, `C26_gain_clipping`, `C28_local_weighted_mean`, `C28_within_window_extremes`, `C28_zero_smoothing_rejected`, `C30_energy_decay`, `C30_undefined_iff_silent_or_short`

**C_sph.v**

* closed under the global context: `C18_acn_bijective`
* A1: `C18_repeat_per_order`
* A1, A2, A5: `C11_rotates_the_field`, `C11_rotate_sh_moves_directions`, `C11_block_diagonal`, `C11_rotate_sh_applies_matrix`, `C11_rejects`, `C11_order_0_raises`, `C11_every_order_refuted`, `C13_roundtrip`, `C13_non_square`, `C13_two_three_channels`, `C14_roundtrip`, `C14_zero_weight`, `C14_plane_wave`, `C15_sht_inverts_inverse_sht`, `C15_default_weights`, `C15_exact_grids`, `C15_designs`, `C15_linear`, `C15_surplus_ignored`, `C15_too_few`, `C16_perfect_reconstruction`, `C16_energy_multiple`, `C16_designs_qualify`, `C16_other_modes_rejected`, `C17_addition_theorem`, `C17_peak`, `C17_default_weights`, `C17_wrong_weights`, `C18_sh_matrix_columns`, `C19_convex_combination`, `C19_silent_row`, `C19_rows`, `C67_real_harmonics`, `C67_complex_harmonics`, `C68_orthogonal`, `C68_composition`, `C69_least_squares`
* A1, A2, A4, A5: `C20_first_order_field`, `C70_product_of_functions`, `C71_projection`

**C_grids.v**

* closed under the global context: `C22_n_design_gap`, `C22_n_design_gap_low`, `C22_lebedev_gap`, `C22_gaps_attained`, `C22_n_design`, `C22_t_design`, `C22_Fliege_Maier`, `C22_maxDet_refuted`
* A1, A2, A5: `C21_equal_polar_angle`, `C21_equal_angle_points`, `C21_equal_angle_weights`, `C22_lebedev`, `C22_out_of_range`, `C23_weights_exact`, `C23_bad_arguments`, `C23_search`
* A1, A2, A4, A5: `C21_equal_angle`, `C21_gauss`, `C21_gauss_points`, `C72_equal_angle`, `C72_gauss`

**C_dec1.v**

* closed under the global context: `C48_simplex_valid_is_membership`, `C49_rim_edges`, `C49_rim_vertices_even`, `C49_two_rims_undetected_refuted`, `C54_sort_vertices`
* A1, A5: `C54_normals_do_not_point_inward`, `C54_normal_or_reverse`, `C54_normal_orthogonal`
* A1, A2, A5: `C48_constructor_triangulates`, `C49_outcome`, `C54_normal_length`
* A1, A2, A4, A5: `C44_gains_point_at_source`, `C44_active_inside`, `C44_scale_invariant`, `C44_two_norm`, `C45_any_interleaving`, `C45_fair_schedules_complete`, `C46_history_independent`, `C46_stale_cache`, `C46_history_independence_refuted`, `C47_nonnegative_unit_norm`, `C47_unit_norm_when_active`, `C48_pops_remove_exactly`, `C48_idempotent`, `C48_empty_blacklist_removes_all`, `C48_limits_wrap_around`, `C52_nearest_only`, `C52_row_per_source`

**C_dec2.v**

* A1: `C74_signals`, `C74_wrong_loudspeakers`, `C74_wrong_length`
* A1, A2, A4, A5: `C50_panning_function`, `C50_decoder_is_panner`, `C50_allrad2`, `C51_harmonics_at_loudspeakers`, `C51_epad_energy`, `C51_epad_plane_wave`, `C51_uniform_layouts`, `C51_mode_matching`, `C51_default_order`, `C51_too_few_channels`, `C53_energy`, `C53_unit_energy_refuted`, `C73_order_positive`, `C73_no_value_error`, `C73_least_order`, `C73_setup`, `C73_none_kernel_raises`, `C73_none_kernel_refuted`

**C_dec3.v**

* A1: `C57_single_channel_or_tap`, `C57_asserts`
* A1, A5: `C57_convolution`, `C57_linear`
* A1, A2, A5: `C55_shifts_in_place`, `C55_array_listener`, `C55_history`, `C55_history_array_listener`, `C55_frame`, `C55_no_offset`, `C55_from_sph`, `C55_failed_call`, `C55_integer_arrays`, `C55_arrays_kept_refuted`
* A1, A2, A4, A5: `C56_directions`, `C56_superposition`, `C56_gate_error`, `C56_linear`, `C56_wrong_rate`, `C56_wrong_count`

**C_parsa.v**

* A1, A5: `C36_sum`, `C36_rejects`, `C36_default`, `C36_signal_and_noise`, `C36_eigenvectors`, `C36_zero_cut`, `C36_zero_cut_refuted`, `C37_range`, `C37_from_covariance`, `C37_low_variance`, `C37_first_jump`, `C37_no_jump`, `C37_errors`, `C37_scale_refuted`
* A1, A2, A5: `C12_prepared_weights`, `C12_errors`, `C38_distortionless`, `C38_optimal`, `C38_singular`, `C39_constraints`, `C39_optimal`, `C39_exists`, `C39_no_repeated_direction`, `C43_bounds`, `C43_peak`, `C43_signal_space`, `C43_finds_sources`, `C43_no_noise_space`
* A1, A2, A4, A5: `C12_unit_gain`, `C12_unit_gain_weights`, `C12_pattern`, `C38_exists`, `C75_sector_patterns`

**C_parsa2.v**

* A1, A2, A5: `C33_no_deadlock`, `C35_empty_grid`, `C42_gains`, `C42_sum`, `C42_sides`, `C42_elevation_ignored`, `C76_encoded_source`
* A1, A2, A4, A5: `C33_values`, `C33_parallel`, `C33_unvisited`, `C33_last_window_refuted`, `C33_window_one`, `C33_checks`, `C33_after_trim`, `C33_trim_refuted`, `C34_parallel`, `C34_no_deadlock`, `C34_separate_locks_refuted`, `C35_output`, `C35_linear`, `C35_one_direction`, `C76_direction`, `C76_loud_samples`, `C77_superposition`, `C77_one_loudspeaker_at_a_time`, `C77_checks`

**C_parsa3.v**

* A1, A2, A5: `C40_windows`, `C40_rates`, `C40_sizes_exist`, `C41_no_boost`, `C41_smoothing_weights`
* A1, A2, A4, A5: `C40_output`, `C40_taps`, `C40_96k_refuted`, `C40_identity`, `C40_boost`, `C40_tail_unnoticed_refuted`, `C40_false_alarm_refuted`, `C41_output`, `C41_identity`, `C41_odd_blocks_rejected`, `C41_order_rejected`

**C_io.v**

* closed under the global context: `C63_rates_disagree`, `C63_rate_argument`, `C63_missing_file`, `C63_no_files`, `C63_array_needs_rate`, `C64_file_name`
* A1: `C63_load`
* A1, A5: `C63_roundtrip`, `C63_roundtrip_ambi`, `C63_roundtrip_mono`, `C63_single_channel`, `C63_array`, `C63_fs_ignored`, `C63_fs_contradiction_refuted`, `C63_ragged`, `C63_silence`, `C78_file`, `C78_one_direction`
* A1, A2, A5: `C64_sdm`, `C65_tight`
* A1, A2, A4, A5: `C64_loudspeaker`, `C64_loudspeaker_succeeds`, `C64_superposition`, `C64_jobs`, `C64_no_workers`, `C64_no_workers_refuted`, `C64_sdm_values`, `C65_dummy`, `C65_any_rate`, `C65_raises`, `C78_rate`, `C78_default_rates`, `C78_default_kept`

**C_io2.v**

* closed under the global context: `C62_no_entries`
* A1, A2, A4, A5: `C62_saved`, `C62_saves`, `C62_no_hull`, `C62_integer_gains`, `C62_too_few_gains`, `C62_loaded`, `C62_integer`, `C62_file_order`, `C62_missing_key`, `C62_roundtrip`, `C62_resave`, `C62_resave_refuted`, `C62_gains_misassigned_refuted`, `C62_integer_gains_refuted`

**C_io3.v**

* A1, A2, A5: `C79_loaded`, `C79_missing_key`, `C79_no_nan`, `C80_loaded`, `C80_one_measurement`, `C80_missing_key`, `C80_to_sh`, `C80_elevation_refuted`

**C_sph2.v**

* closed under the global context: `C81_unknown`, `C82_empty`
* A1, A2, A5: `C81_hankel`, `C81_rigid`, `C81_rigid_size`, `C81_order_zero`, `C81_rigid_at_zero`, `C81_open`, `C82_pressure`, `C82_weights_short`, `C82_gain`, `C82_boost`, `C82_unity`, `C82_cut`, `C82_taper_short`
* A1, A2, A4, A5: `C81_bessel`, `C82_unsorted_refuted`

**C_magls.v**

* A1, A2, A4, A5: `C83_result`, `C83_too_few_bins`, `C83_order_zero`, `C83_unknown`, `C83_short`, `C83_no_rate`, `C83_odd_taps`, `C83_default_192kHz`, `C83_length_refuted`, `C84_magnitude`, `C84_common_delay`, `C84_pulses`

**C_ctf.v**

* A1, A2, A5: `C85_correction`, `C87_even_length`, `C87_error`, `C87_equal_rates`, `C87_too_short`, `C87_odd_length_refuted`
* A1, A2, A4, A5: `C28_exact_weights`, `C85_result`, `C85_flat`, `C85_scaled`, `C85_weights_scaled`, `C85_ears`, `C85_wrong_weights`, `C85_no_rate`, `C85_negative_energy`, `C85_silent`, `C85_short_not_finite`, `C85_all_zero_refuted`, `C86_full`, `C86_same`, `C86_valid`, `C86_rejected`, `C86_default`, `C86_spectrum`, `C86_pulse`

**C_plot.v**

* closed under the global context: `C90_all_samples`
* A1, A5: `C88_octave_label_wrong`, `C93_hull_drawn`, `C93_hull_faces`, `C93_hull_colors`, `C93_hull_color_mismatch`, `C93_hull_limits`, `C93_aspect`, `C93_bars`, `C93_bars_general`, `C93_bars_dropped_refuted`
* A1, A2, A5: `C89_doa`, `C89_doa_number`, `C89_doa_zero_rate`, `C89_doa_third_turn_refuted`, `C89_ild_itd`, `C89_ild_itd_refuted`, `C91_grid`, `C93_balloon_grid`, `C93_function`, `C93_hull_colors_refuted`
* A1, A2, A4, A5: `C88_spectrum`, `C88_tuple_labels`, `C88_freq_resp_tuple`, `C88_mixed_lengths_refuted`, `C89_map`, `C89_map_list`, `C89_integer_azimuths_refuted`, `C90_rms`, `C90_plane_wave`, `C90_default_limits`, `C90_default_limits_refuted`, `C90_tail_refuted`, `C91_sums`, `C91_silent`, `C91_vector`, `C91_ranges`, `C91_cone`, `C91_single`, `C91_performance`, `C91_nearest`, `C91_vbap`, `C91_unit_gain_refuted`, `C92_transfer`, `C92_mismatch`, `C92_polar`, `C92_transfer_refuted`, `C93_balloon`, `C93_balloon_steps`

**C_sig2.v**

* closed under the global context: `C95_start`, `C96_channels`, `C96_file_channels`, `C96_attributes`
* A1: `C96_signals_new`, `C105_mono`, `C105_multi`, `C105_ambi`, `C105_file`, `C105_signals`, `C105_item`
* A1, A2, A5: `C94_copy`, `C94_no_interference`, `C94_histories`, `C94_trim_audio`, `C95_sound`, `C95_only_writes`, `C95_methods`, `C95_runs`, `C96_array_is_kept`, `C96_list_is_copied`, `C96_window`, `C96_ownership_refuted`, `C105_sh_to_b`, `C105_sh_to_b_mono`

**C_ambeo.v**

* A1, A5: `C97_difference_equation`, `C97_lfilter_result`, `C97_impulse_response`, `C97_linear`, `C97_lfilter_errors`
* A1, A2, A5: `C97_stereo_panned`
* A1, A2, A4, A5: `C97_b_format`, `C97_only_four`, `C97_filtered`, `C97_channels_unfiltered`, `C97_capsules`, `C97_stereo`, `C97_filters_reach_channels_refuted`, `C98_default_set`, `C98_rate_unused`, `C98_errors`, `C98_label_refuted`

**C_diag.v**

* closed under the global context: `C101_compare_refuted`
* A1, A5: `C99_roots`, `C99_no_roots`, `C101_difference`, `C101_metric`, `C101_sizes`, `C101_one_element`, `C101_zero_refuted`, `C101_entries_refuted`
* A1, A2, A5: `C99_transfer_function`, `C99_decay`, `C99_poles_inside_stable`, `C99_stable_pole_inside`, `C99_stable_iff`, `C99_origin_refuted`, `C100_overlay`, `C100_overlay_colours`, `C100_colours_refuted`, `C101_normals`
* A1, A2, A4, A5: `C100_complex_balloon`, `C100_subplot`, `C100_subplot_axes`, `C100_subplot_empty`, `C100_subplot_one_refuted`, `C100_mixed_overlay_refuted`

**C_filt.v**

* A1, A5: `C102_filtfilt`, `C102_defined`, `C102_unique`, `C102_linear`, `C102_constant`, `C102_offset`, `C102_sosfiltfilt`, `C102_sections`, `C102_zero_phase_fir`
* A1, A2, A5: `C102_zero_phase`, `C102_zero_phase_sections`
* A1, A2, A4, A5: `C103_defined`, `C103_coefficients`, `C103_gain`, `C103_butterworth`, `C103_band`, `C103_poles`, `C103_stable`, `C103_sections`, `C103_filters`, `C103_zero_phase`, `C103_offset`, `C104_ild`, `C104_ild_defined`, `C104_ild_band_error`, `C104_ild_short_error`, `C104_ild_default_band_refuted`, `C104_ild_swap`, `C104_ild_gain`, `C104_ild_offset`, `C104_ild_copy`, `C104_itd`, `C104_itd_defined`, `C104_itd_band_error`, `C104_itd_bound`, `C104_itd_gain`, `C104_itd_swap`, `C104_itd_copy`, `C104_itd_silence_refuted`, `C104_intensity`, `C104_intensity_defined`, `C104_intensity_errors`, `C104_intensity_direction`, `C104_intensity_offset`

**C_sph3.v**

* A1, A2, A5: `C106_basis`, `C106_orthonormal`, `C106_inverts`, `C106_inverts_default`, `C106_parseval`, `C106_linear`, `C106_value`, `C106_real_functions`, `C106_symmetry`, `C106_same_value`, `C106_synthesis`, `C106_sources`, `C106_sources_value`, `C106_least_squares`, `C106_least_squares_real`, `C107_perfect`, `C107_energy`, `C107_matrices`, `C107_other_modes`, `C107_pinv`, `C107_pinv_sectors`, `C107_pinv_real`, `C107_sofa`, `C107_factor`, `C16_matrices`
* A1, A2, A4, A5: `C107_product`

**C_misc.v**

* closed under the global context: `C109_init`, `C109_getitem`
* A1: `C110_resample`, `C110_resample_first_axis`
* A1, A2, A5: `C108_kept`, `C108_upright`, `C108_inside_dropped_refuted`, `C108_outside_kept_refuted`, `C109_unequal_ears_refuted`, `C109_update`, `C109_updates`, `C109_nearest_empty`, `C110_rms`, `C110_rms_laws`, `C110_area`, `C110_levels`, `C110_levels_errors`, `C110_levels_axis_refuted`
* A1, A2, A4, A5: `C109_nearest`, `C109_nearest_hrirs`

**C_dec4.v**

* A1, A2, A4, A5: `C111_rows`, `C111_errors`, `C111_energy`, `C111_at_imaginary`, `C111_after_setup`, `C111_vbip_silent_refuted`, `C47_values`, `C47_intensity`, `C47_unequal_distances_refuted`, `C91_vbip`

**C_gauss.v**

* closed under the global context: `C112_degree_zero`
* A1, A5: `C112_series`
* A1, A2, A5: `C112_divisors`
* A1, A2, A4, A5: `C112_leggauss`, `C112_sharp`, `C112_contract_met`, `C112_grid`, `C112_legendre_determined`

**C_modal.v**

* A1, A2, A5: `C113_butterworth`, `C113_unity_gain`, `C14_value`, `C15_sht_value`, `C15_sht_given_value`, `C15_inverse_value`, `C15_inverse_given_value`, `C19_value`
* A1, A2, A4, A5: `C113_hypercardioid`, `C113_cardioid`, `C113_longest`, `C113_max_rE`

**C_dec5.v**

* A1, A5: `C114_pinv_unique`
* A1, A2, A4, A5: `C50_allrap2_value`, `C50_allrad_value`, `C50_errors`, `C51_sad_value`, `C51_mad_best_fit`, `C51_epad_few`, `C114_mad_determined`
* A1, A2, A3, A4, A5: `C114_svd_exists`, `C114_pinv_exists`, `C114_epad_determined`, `C114_epad_determined_refuted`

**C_eig.v**

* A1, A5: `C115_spectral_functions`
* A1, A2, A5: `C43_value`
* A1, A2, A3, A4, A5: `C115_eigh_exists`, `C115_eigenvalues_unique`, `C115_separate_determined`, `C115_count_determined`, `C115_music_determined`, `C115_music_determined_refuted`

**C_music.v**

* A1, A2, A5: `C116_independent`, `C116_separate_sources`, `C116_lcmv_iff`, `C116_lcmv_distinct`
* A1, A2, A3, A4, A5: `C116_circle_dependent`, `C116_spectrum`, `C116_music_exact`, `C116_music_ghosts`, `C116_music_exact_refuted`, `C116_lcmv_circle`

**C_firwin.v**

* A1, A2, A5: `C117_design`, `C117_symmetric`, `C117_errors`, `C117_linear`, `C117_power`
* A1, A2, A4, A5: `C24_gains`, `C117_first_identity`, `C117_second_filters`, `C117_second_identity_refuted`

**C_minph.v**

* A1, A2, A5: `C118_trim`
* A1, A2, A4, A5: `C118_response`, `C118_determined`, `C118_gain`, `C118_flat`, `C118_pulse`, `C118_gains_only`, `C118_scaled`, `C118_errors`, `C118_flat_equaliser`, `C118_flat_equalised`, `C118_equaliser_gains`, `C118_flat_unchanged_refuted`

**C_fta.v**

* A1, A2, A5: `C119_drawn_points`, `C119_distances`, `C119_companion`
* A1, A2, A4, A5: `C119_roots_unique`, `C119_drawing_determined`, `C119_symmetric`
* A1, A2, A3, A4, A5: `C119_roots_exist`, `C119_solver_exists`, `C119_stability`

**C_count.v**

* A1, A2, A4, A5: `C120_variance`, `C120_gate`, `C120_noise_only`, `C120_quiet`, `C120_quiet_orders`
* A1, A2, A3, A4, A5: `C120_order_12`, `C120_exact`, `C120_iff`, `C120_missed`, `C120_one_source`, `C120_overcount_refuted`

**C_hmem.v**

* A1, A2, A5: `C121_init`, `C121_write_seen`, `C121_item`, `C121_update`, `C121_equaliser_pure`, `C121_copy`, `C121_copy_independent`, `C121_nearest_copies`, `C121_frame`, `C121_counts`, `C121_taps`, `C121_shared_refuted`, `C121_half_equalised_refuted`, `C121_taps_refuted`, `C121_one_array_refuted`
* A1, A2, A4, A5: `C121_equaliser`

**C_cover.v**

* A1, A5: `C122_convex`, `C122_unique`
* A1, A4, A5: `C122_covers`
* A1, A2, A4, A5: `C122_active`, `C122_performance`, `C122_allrap2`, `C122_retain`, `C122_face_order`, `C122_hole_refuted`, `C122_face_order_refuted`

**C_cover2.v**

* A1: `C123_sorted`
* A1, A4, A5: `C123_closes_up`
* A1, A2, A4, A5: `C123_setup`, `C123_centred`, `C123_same_sound`, `C123_dropped_refuted`

**C_cover3.v**

* A1, A2, A4, A5: `C124_continuous`, `C124_setup`, `C124_continuous_refuted`

**C_render.v**

* A1, A5: `C125_lowered`
* A1, A2, A4, A5: `C125_default`, `C125_source_at_rest`, `C125_rate_96k`, `C125_none`, `C125_function`, `C125_checks`

**C_vbip.v**

* A1, A2, A4, A5: `C126_all_directions`, `C126_continuous`, `C126_performance`, `C126_setup`, `C126_continuous_refuted`

**C_crms.v**

* A1, A2, A4, A5: `C127_rms`, `C127_unknown_type`, `C127_plane_wave`, `C127_same_map`, `C127_real`, `C127_dtype_refuted`

**C_order.v**

* A1, A2, A5: `C128_designs`
* A1, A2, A4, A5: `C128_every_order`, `C128_result_refuted`
* A1, A2, A3, A4, A5: `C128_order`, `C128_quadrature`, `C128_designs_found`, `C128_few_points`, `C128_contract`

**C_cond.v**

* A1, A2, A5: `C129_grids`, `C129_designs`, `C129_silent`, `C129_order_zero`, `C129_complex`
* A1, A2, A4, A5: `C129_message`, `C129_same`
* A1, A2, A3, A4, A5: `C129_few_points`, `C129_contract`

**C_noise.v**

* A1, A2, A5: `C130_noise`, `C130_size`, `C130_designs`, `C130_distance`, `C130_best`

**C_warn.v**

* A1, A2, A5: `C131_order`, `C131_designs`
* A1, A2, A4, A5: `C131_one_point`
* A1, A2, A3, A4, A5: `C131_found`
