# Formal model of astro-tiptop/P3 in Rocq (Coq 8.16.1)

## 1. Approach

P3 (`/repo`, Python/NumPy) is modelled as shallow Gallina functions, branch by branch, with Python exceptions as values
of a `result` type. Each definition cites the file and lines it models.

Files are flat under `rocq/theories/`, one concern per prefix:

* `Base_*.v` – Python integer/slice/exception semantics, finite sums over R and C, auxiliary mathematics.
* `M_*.v` – the model: the code, function by function (no proofs). Every definition cites its source lines.
* `S_*.v` – small specification vocabulary used only to *state* properties (never used by the model).
* `L_*.v` – lemmas.
* `P_*.v` – the property theorems: closed by a lemma, `Print Assumptions` beneath, and a non-vacuity `Example` beside.

Naming: `Cnn_…` proves (part of) property Cnn; `Cnn_…_refuted` proves that the code violates the stated expectation
(these are findings about the code, traced in section 4); `_partial` marks an incomplete statement.

## 2. Trusted base

* Coq's kernel (8.16.1), `coqchk`.
* Floats (float32/64) are modelled as exact real numbers (`R`) or complex pairs (`C`); rounding, overflow and NaN propagation
  are not modelled (division by zero is an explicit error or is excluded by a hypothesis, as said at each definition).
* `numpy` primitives (sum, slicing, pad, linspace, max, FFT) are given their mathematical definition.
* Axioms: only those of Coq's standard library reals (`ClassicalDedekindReals.sig_forall_dec`, `sig_not_dec`,
  `FunctionalExtensionality.functional_extensionality_dep`, `Classical_Prop.classic`); `Print Assumptions` under each theorem lists those it uses.
  `vcheck` also prints the sealed fields of the standard library modules `RbaseSymbolsImpl`, `RinvImpl` (Reals) and of mathcomp's `ssrunder` `Under_rel`;
  they are opaque definitions of those libraries, not axioms.


## 3. Properties: what is modelled and how it is proved

### C01 — Binning an image conserves the flux of the covered region

*Model/proof*: Images as shape+pixel function over R; strided slices modelled explicitly; double loop as fold; finite-sum reindexing i = a*k+b.

*Status*: proved. *Theorems*: `C01_binning`, `C01_flux_conserved`, `C01_flux_lost_otherwise`, `C01_zero_factor`. all shapes and factors; pixel values exact reals

### C02 — Zero padding and cropping are inverse of each other exactly when the padding is symmetric

*Model/proof*: Z arithmetic for the pad/crop indices, np.pad as function; parity case split.

*Status*: proved. *Theorems*: `C02_enlarge_flux`, `C02_crop_enlarge`, `C02_crop_enlarge_odd_refuted`, `C02_enlarge_defined`. integer factors for the round trip, rational factors for the flux; the odd case is proved to fail (finding)

### C03 — Image normalisation can be undone and meets its target

*Model/proof*: R-valued image functions; branch by branch model including division-by-zero as an explicit error value.

*Status*: proved. *Theorems*: `C03_roundtrip`, `C03_sum_one`, `C03_minmax`. division by zero is an explicit NonFinite outcome

### C04 — The wavelength vector of a spectral cube samples each band completely

*Model/proof*: np.unique as sorted duplicate-free list; linspace; slice assignment with numpy length check as result type.

*Status*: proved. *Theorems*: `C04_wavelength_vector`, `C04_constructor_agrees`, `C04_constructor_refuted`, `C04_single_bin_refuted`. 

### C05 — Compressing a turbulence profile conserves its integrals

*Model/proof*: posSlab loop modelled on Z incl. the strictly-increasing fix-up; R power via Rpower; partition lemma by induction.

*Status*: proved. *Theorems*: `C05_eqLayers`, `C05_refused`, `C05_identity`, `C05_order`. any exponent p>0

### C06 — A non-negative PSD gives a valid phase structure function

*Model/proof*: 2D DFT defined as finite complex sums (Coquelicot C); lexicographic max of numpy complex arrays modelled.

*Status*: proved. *Theorems*: `C06_structure_function`, `C06_even_grid_physical`, `C06_phaseStructureFunction`, `C06_linear`, `C06_odd_grid_refuted`. true on every even grid; the odd-grid case is refuted (finding)

### C07 — The atmospheric OTF is a valid transfer function and the Strehl never exceeds 100%

*Model/proof*: pointwise inequalities + finite sums over R and C modulus.

*Status*: proved. *Theorems*: `C07_otf_valid`, `C07_strehl_range_3D`, `C07_strehl_range_4D`, `C07_strehl_monotone`. 

### C08 — The delivered PSF carries exactly the requested flux and background

*Model/proof*: composition of IFFT (as a function), binning, crop models; scaling; error value for zero total.

*Status*: proved. *Theorems*: `C08_flux_3D`, `C08_defined_3D`, `C08_flux_4D`, `C08_defined_4D`. 

### C09 — The parameter vector of a PSF model is split without overlap and without loss

*Model/proof*: list slicing model; theorem firstn/skipn reconstruction.

*Status*: proved. *Theorems*: `C09_split_multi`, `C09_split_mono`, `C09_defaults`, `C09_short_multi`, `C09_short_mono_refuted`. 

### C10 — Ensquared energy is a non-decreasing curve between 0 and 1

*Model/proof*: python slice semantics with negative starts; monotone sums.

*Status*: proved. *Theorems*: `C10_ensquared_energy`, `C10_even_reaches_one`, `C10_odd_refuted`, `C10_offcentre_refuted`. the unrestricted claim is refuted for odd sizes and off-centre peaks (findings)

### C11 — The polar grid samples each ring adaptively up to the cap

*Model/proof*: loop state machine over ring index; refuted with witness + exact characterisation of what the code does.

*Status*: proved. *Theorems*: `C11_ring_counts`, `C11_adaptive_refuted`, `C11_radius`. the adaptive sampling claim is refuted (finding)

### C12 — The Fourier symmetric helper returns x(-u)

*Model/proof*: model with numpy fancy indexing; refuted theorem.

*Status*: proved. *Theorems*: `C12_fftsym_refuted`, `C12_fftsym_damage`. the claim is false of the code: proved refutation for every size

### C13 — Full spectra rebuilt from half spectra are the true spectra

*Model/proof*: DFT as finite sums, conjugate symmetry lemma, index case split.

*Status*: proved. *Theorems*: `C13_rfft2_to_fft2`. 

### C14 — Spatial frequency grids contain the origin at the array centre

*Model/proof*: affine functions on Z/R.

*Status*: proved. *Theorems*: `C14_freq_array`, `C14_shift_array`, `C14_odd_no_origin_refuted`, `C14_piston_filter`. Bessel function abstract

### C15 — Changing the atmosphere wavelength is path independent and reversible

*Model/proof*: state record + fold over setter list; Rpower algebra.

*Status*: proved. *Theorems*: `C15_path_independent`, `C15_reversible`, `C15_seeing`. every history of positive wavelengths

### C16 — Layers share the total turbulence strength

*Model/proof*: record model of layers; refuted theorem for setter history.

*Status*: proved. *Theorems*: `C16_layers_share_strength`, `C16_slab_fresh`, `C16_slab_stale_refuted`. stale layers after a wavelength change are a finding

### C17 — Turbulence power spectra are positive, finite and decreasing

*Model/proof*: Rpower monotonicity.

*Status*: proved. *Theorems*: `C17_spectrum_finite_L0`, `C17_spectrum_infinite_L0`, `C17_spectrum_r0`. Gamma values abstract positive reals

### C18 — Angular and temporal covariance at zero separation give the phase variance

*Model/proof*: covariance as abstract function; refuted for nL>=2; proved for nL=1.

*Status*: proved. *Theorems*: `C18_angular_zero`, `C18_temporal_zero`, `C18_temporal_refuted`, `C18_scalar_wind_refuted`, `C18_structure_function`, `C18_angular_structure`, `C18_matern`. temporal part refuted (finding)

### C19 — The WFS noise variance is physically ordered

*Model/proof*: formula model over R, per algorithm branch.

*Status*: proved. *Theorems*: `C19_defined_nonnegative`, `C19_monotone`, `C19_refused`, `C19_pyramid_infinite_flux_refuted`, `C19_science_wavelength`. pyramid default flux refuted (finding)

### C20 — Photon numbers are assigned to each wavefront sensor

*Model/proof*: typed value model (number or nested list).

*Status*: proved. *Theorems*: `C20_full_list_kept`, `C20_short_list_refuted`, `C20_repeated_calls`. short lists refuted (finding)

### C21 — Source direction vectors are complete and consistent

*Model/proof*: list model.

*Status*: proved. *Theorems*: `C21_direction`, `C21_broadcast`, `C21_mismatch_accepted_refuted`, `C21_multi_wavelength_broadcast_refuted`, `C21_heights_refuted`, `C21_azimuth_periodic`. findings refuted

### C22 — Actuator index maps are mutually inverse

*Model/proof*: Z div/mod.

*Status*: proved. *Theorems*: `C22_square_roundtrip`, `C22_square_roundtrip_index`, `C22_rectangular`. 

### C23 — The science sampling is always Nyquist or better

*Model/proof*: Rceil model (up/IZR) and real arithmetic.

*Status*: proved. *Theorems*: `C23_sampling`, `C23_defined`, `C23_expansion_refuted`. 

### C24 — The AO-corrected and uncorrected frequency domains partition the frequency plane

*Model/proof*: boolean mask functions.

*Status*: proved. *Theorems*: `C24_partition`, `C24_meaning`, `C24_embedding_size`, `C24_embedding_aligned`, `C24_integration_step`, `C24_nTimes`, `C24_cutoffs`, `C24_nTimes_value`. 

### C25 — The reconstructor never amplifies the phase and is optimal

*Model/proof*: complex algebra over Coquelicot C.

*Status*: proved. *Theorems*: `C25_filter_between_0_and_1`, `C25_defined`, `C25_optimal`, `C25_noise_propagation`, `C25_noise_spectrum`, `C25_pyramid_gain`. 

### C26 — Every PSD contribution and their total are non-negative and additive

*Model/proof*: per-pixel PSD formulas; Jensen inequality for controller averages.

*Status*: proved. *Theorems*: `C26_total_is_the_sum`, `C26_extra_error_of_source`, `C26_total_nonnegative`, `C26_scao_total_nonnegative`, `C26_area_must_fit`, `C26_normalisation_refuted`, `C26_contributions_nonnegative`, `C26_contributions_defined`, `C26_weight_excess_refuted`, `C26_servo_lag_is_on_axis`, `C26_off_axis_error`, `C26_outside_area`, `C26_chromatism_unmasked_refuted`, `C26_aliasing_orders`. 

### C27 — The error breakdown is a quadratic sum and the Marechal Strehl is a percentage

*Model/proof*: record model with optional attributes; sqrt and exp.

*Status*: proved. *Theorems*: `C27_quadratic_sum`, `C27_strehl_decreasing`, `C27_matches_the_psd`, `C27_missing_terms`. 

### C28 — Extra-error PSD integrates to the requested wavefront error

*Model/proof*: finite sums.

*Status*: proved. *Theorems*: `C28_extra_error`, `C28_defined`, `C28_low_order_interpolated`, `C28_low_order_list_length`, `C28_low_order_number`. 

### C29 — The chunked layer sum equals the full sum

*Model/proof*: list chunking + fold.

*Status*: proved. *Theorems*: `C29_chunk_independent`, `C29_no_layer`. 

### C30 — The memory estimate is an upper envelope

*Model/proof*: N arithmetic.

*Status*: proved. *Theorems*: `C30_entries_nonnegative`, `C30_peak_above_final`, `C30_monotone`, `C30_reduce_memory`, `C30_double_precision`, `C30_covers_psd`, `C30_upper_bound_refuted`. 

### C31 — Fit bounds are well formed

*Model/proof*: extended reals list model.

*Status*: proved. *Theorems*: `C31_fourier_bounds`, `C31_psfao_bounds`, `C31_psfr_bounds`, `C31_update_bounds`, `C31_update_layout_refuted`. 

### C32 — Configuration files are validated before use

*Model/proof*: config as finite map, result monad.

*Status*: proved. *Theorems*: `C32_accepted_is_valid`, `C32_mandatory_key_refused`, `C32_mandatory_section_refused`, `C32_missing_strength`, `C32_missing_lo_zenith_is_KeyError`, `C32_defaults_are_documented`, `C32_zenith_too_large`, `C32_precision_unknown`, `C32_file_missing`, `C32_weights_not_normalised`, `C32_profile_length`, `C32_wind_direction_length`, `C32_ho_star_length`, `C32_opt_length`, `C32_mirror_heights_needed`, `C32_mirror_lengths`, `C32_line_of_sight`, `C32_airmass_positive`, `C32_telescope_values`, `C32_sensor_and_mirror_values`, `C32_file0_accepted`. defaults_are_documented compares the results, the map mutated by side effect is not compared there

### C33 — The science field of view rule

*Model/proof*: Z/R ceil model.

*Status*: proved. *Theorems*: `C33_fov_missing`, `C33_fov_positive`, `C33_fov_refused`, `C33_fov_automatic`, `C33_camera_fov`. 

### C34 — Re-configuring the science channel is idempotent

*Model/proof*: state transition on the config map; refuted + proved part.

*Status*: proved. *Theorems*: `C34_reconfiguration_idempotent`, `C34_reconfiguration_growth`, `C34_reconfiguration_idempotent_refuted`. the unconditional claim is refuted; the exact condition is proved

### C35 — The AO mode is determined by the guide stars, mirrors and reconstructed layers

*Model/proof*: decision function.

*Status*: proved. *Theorems*: `C35_mode_of_file`, `C35_mode_table`. 

### C36 — Config paths are resolved by a fixed priority

*Model/proof*: file system as predicate.

*Status*: proved. *Theorems*: `C36_paths_resolved`, `C36_absolute_path_kept`, `C36_existing_absolute_file_hidden_refuted`, `C36_join`. 

### C37 — Noll indices map one-to-one onto Zernike orders

*Model/proof*: Z.sqrt model; induction on rows.

*Status*: proved. *Theorems*: `C37_noll_orders`, `C37_injective`, `C37_onto`, `C37_mode_count`, `C37_findNM_list`, `C37_findNM_other_list_refuted`. Square roots of the index formulas are exact.

### C38 — Zernike modes are one at the pupil edge and orthonormal

*Model/proof*: finite differences of polynomials, moments, Riemann integrals of trigonometric products.

*Status*: proved. *Theorems*: `C38_edge`, `C38_orthonormal`. Riemann integral over the disc in polar coordinates (Coquelicot is_RInt).

### C39 — Refractivity of the air: one model per wavelength, physical values

*Model/proof*: band table list; find first.

*Status*: proved. *Theorems*: `C39_selection`, `C39_bands_disjoint`, `C39_elementwise`, `C39_absolute_zero`, `C39_default_infrared`, `C39_default_visible`, `C39_step`, `C39_dry_ideal_gas`, `C39_humidity_visible`, `C39_pressure_infrared`, `C39_chromatic`, `C39_Q_band_refuted`. All five coefficient tables are copied from the source digit by digit; exact reals.

### C40 — A fit moves only the free parameters, within bounds, and minimises the documented criterion

*Model/proof*: list model.

*Status*: proved. *Theorems*: `C40_fixed_parameters_kept`, `C40_free_parameters_bijection`, `C40_starts_at_guess`, `C40_integer_guess_refuted`, `C40_bounds_respected`, `C40_bounds_need_mask_refuted`, `C40_other_methods_ignore_bounds_refuted`, `C40_criterion`, `C40_refusals`, `C40_images`, `C40_error_bars`, `C40_error_bar_value`, `C40_singular`, `C40_guess_accepted`. SciPy's least_squares is an arbitrary interaction strategy (any number of evaluations, each depending on the previous answers); numpy.linalg.inv is an arbitrary function that returns inverses or fails. Findings are the _refuted theorems.

### C41 — Asking for fewer pixels returns that number of pixels

*Model/proof*: Flocq binary64 model of n/(n/m) then int(); error analysis of two roundings.

*Status*: proved. *Theorems*: `C41_crop_exact_when_divides`, `C41_crop_at_most_one_short`, `C41_crop_refuted`. binary64 arithmetic via Flocq; unrestricted claim refuted

### C42 — Astrometric shifts move the PSF by the requested number of pixels

*Model/proof*: DFT shift theorem on the model of the whole chain, binning reindexing modulo n.

*Status*: proved. *Theorems*: `C42_shift_3D`, `C42_shift_4D`, `C42_shift_4D_refuted`. kRef=2 in the 4-D function refuted (finding)

### C43 — Static aberrations can only lower the transfer function

*Model/proof*: FFT based auto-correlation proved equal to the direct sum (convolution theorem), then triangle inequality.

*Status*: proved. *Theorems*: `C43_otf2psf_unit_sum`, `C43_static_aberration`, `C43_getStaticOTF`. getStaticOTF without resampling (interpolation = identity)

### C44 — The polychromatic PSF function accepts its documented defaults

*Model/proof*: exceptions as values; the theorems show the error for all remaining arguments.

*Status*: proved. *Theorems*: `C44_default_stellar_refuted`, `C44_monochromatic_shift_refuted`, `C44_zero_jitter_refuted`. refuted (findings)

### C45 — A PSF is never negative

*Model/proof*: positive-definite sequences closed under product, exponential series and limits; DFT of a positive-definite sequence is non-negative.

*Status*: proved. *Theorems*: `C45_psf_nonnegative`. 

### C46 — A field of view too small for the correction area is refused

*Model/proof*: real arithmetic on the frequency-domain record.

*Status*: proved. *Theorems*: `C46_fov_check_sound`, `C46_fov_check_refuted`. 

### C47 — Integrated turbulence parameters are consistent with the profile

*Model/proof*: weighted power means; Rpower algebra.

*Status*: proved. *Theorems*: `C47_mean_height_between_layers`, `C47_tau0_scaling`, `C47_theta0_scaling`, `C47_equal_L0_list`, `C47_single_L0_list_refuted`. theta0 for infinite L0 only (finite L0 uses a numerical root search)

### C48 — Deformable mirror descriptions are consistent

*Model/proof*: list model with ValueError results; Z.sqrt.

*Status*: proved. *Theorems*: `C48_dm_lists`, `C48_dm_accepted`, `C48_dm_refused`, `C48_radial_order`, `C48_modes_exceed_actuators_refuted`, `C48_repr_refuted`. 

### C49 — Loop parameters of the real-time computer

*Model/proof*: real arithmetic; option record.

*Status*: proved. *Theorems*: `C49_bandwidth`, `C49_low_order_loop`, `C49_shown_delay_refuted`. 

### C50 — Loop transfer functions

*Model/proof*: complex numbers (Coquelicot), principal powers, guards modelled; Jensen inequality.

*Status*: proved. *Theorems*: `C50_rejection_plus_correction`, `C50_mean_transfer`, `C50_static_turbulence`, `C50_rate_checked`, `C50_open_loop_refuted`, `C50_wind_angles`. 

### C51 — The description of the turbulence layers does not matter

*Model/proof*: inductive relation on layer lists; weighted sums.

*Status*: proved. *Theorems*: `C51_layer_description`. 

### C52 — Multi-laser cone error is bounded by the turbulence removed

*Model/proof*: |z(1-p)/(z-p)|<=1 for |z|=1<p; induction on layers.

*Status*: proved. *Theorems*: `C52_cone_between_residual_and_turbulence`, `C52_cone_vanishes`. 

### C54 — Flux estimate of an image

*Model/proof*: More than half of the masked pixels are zero: count of lattice points in the unit disc by induction, then sorted median.

*Status*: proved. *Theorems*: `C54_flux_is_plain_sum`, `C54_background_removed_refuted`, `C54_normalise_by_flux`. side conditions exact for even sides up to rounding: see C54_small_image for a 2x2 counterexample

### C55 — Distance between two images

*Model/proof*: Sums of squares / absolute values.

*Status*: proved. *Theorems*: `C55_distance`, `C55_l2_le_l1`, `C55_scale_free`. 

### C56 — PSF of a transfer function

*Model/proof*: Reindexing of the shifted inverse DFT.

*Status*: proved. *Theorems*: `C56_otf2psf_closed_form`, `C56_real_otf_symmetric`. 

### C57 — Theoretical error budget of the system

*Model/proof*: Inversion of the executable budget; rad2nm and sqrt algebra.

*Status*: proved. *Theorems*: `C57_budget_identity`, `C57_budget_fitting`, `C57_budget_when`, `C57_budget_servo`, `C57_budget_cone`, `C57_cone_sum_nonneg`. 

### C58 — Field-dependent static aberrations can be loaded

*Model/proof*: Refutation for all cubes.

*Status*: proved. *Theorems*: `C58_static_off_refused`. the claim is false of the code: refuted for every cube

### C59 — The documented low-order threshold is used

*Model/proof*: Equality of the two results for every section.

*Status*: proved. *Theorems*: `C59_lo_threshold_ignored`. the claim is false of the code: refuted for every section

### C60 — Stars given by Cartesian coordinates get the right azimuth

*Model/proof*: Counter-example (1,0).

*Status*: proved. *Theorems*: `C60_coo_stars_azimuth_refuted`, `C60_polar`. the claim is false of the code

### C61 — Zernike modes sampled on a grid are the Cartesian polynomials inside the pupil and zero outside

*Model/proof*: pixel-wise real model with arctan2 and R_fun; polar-coordinate lemma; symmetry of the grid.

*Status*: proved. *Theorems*: `C61_modes`, `C61_tilt_sum`. 

### C62 — Options of the Zernike constructor

*Model/proof*: shape-level model of the broadcast.

*Status*: proved. *Theorems*: `C62_unit_norm_single`, `C62_user_coordinates_refuted`, `C62_not_a_list`, `C62_unit_norm_refuted`. 

### C63 — The variance of a Zernike coefficient depends on its radial order only

*Model/proof*: run-length traversal and assignment loop modelled on lists; gamma abstract.

*Status*: proved. *Theorems*: `C63_variance`, `C63_scaling`, `C63_empty`. 

### C64 — The hypergeometric series is truncated at the first index where consecutive terms have equal modulus

*Model/proof*: fuelled while loop with invariant; rising factorials as specification.

*Status*: proved. *Theorems*: `C64_series`, `C64_early_stop_refuted`. 

### C65 — Tilt covariance is symmetric and the anisokinetism vanishes on axis

*Model/proof*: abstract Bessel functions and quadrature; trigonometric identities of atan2.

*Status*: proved. *Theorems*: `C65_symmetric`, `C65_exchange`, `C65_shift`, `C65_isotropic`, `C65_anisokinetism`, `C65_tilt_ignored_refuted`, `C65_unknown_tilt`, `C65_lag_shift_refuted`, `C65_variance_nonneg`, `C65_mixed_filter`. 

### C66 — The PSF reported by a fit is the unit-flux, centred, background-free PSF

*Model/proof*: composition of the model of the index assignments with the model of sort_params (C09).

*Status*: proved. *Theorems*: `C66_psf_parameters`, `C66_no_jitter_refuted`, `C66_fewer_reconstructed_layers_refuted`, `C66_several_wavelengths_refuted`. The positive statement is restricted to the layout for which the code is right; the refuted theorems give what it does otherwise.

### C67 — imageModel stacks and saturates

*Model/proof*: n-dimensional arrays with explicit aliasing of the squeezed view.

*Status*: proved. *Theorems*: `C67_stacking`, `C67_order`, `C67_saturation`, `C67_argument_unchanged`, `C67_argument_saturated_refuted`, `C67_image_unsaturated_refuted`. 

### C68 — Quality metrics of a fit

*Model/proof*: sums over pixels; loop over shared arrays.

*Status*: proved. *Theorems*: `C68_definitions`, `C68_errors`, `C68_scale`, `C68_cube_refuted`. 

### C69 — Tiling, mosaic and star extraction place pixels exactly

*Model/proof*: M_Grid models slices (with clipping), the broadcasting rule of NumPy assignments and the reshape; P_Grid proves exact pixel placement by division and modulo arithmetic, and flux conservation by regrouping sums.

*Status*: proved. *Theorems*: `C69_tiles`, `C69_partition`, `C69_flux`, `C69_mosaic`, `C69_roundtrip`, `C69_mosaic_refused`, `C69_extraction`, `C69_extraction_all`, `C69_edge_repeated_refuted`, `C69_outside_refused`. The repeated edge row is a refutation of the naive claim.

### C70 — Star selection returns the best eligible stars of each segment

*Model/proof*: M_Grid models the selection with np.argsort as a parameter; P_Grid2 assumes of it only that it returns a sorting permutation (an instance is proved) and proves soundness, optimality, completeness and the link with the extraction.

*Status*: proved. *Theorems*: `C70_selection`, `C70_decision`, `C70_all`, `C70_window_in_tile`, `C70_no_limit_refuted`, `C70_unknown_criterion`, `C70_odd_window_refuted`. argsort is any function that returns a sorting permutation. KDTree distances are exact Euclidean distances.

### C71 — PSF interpolation is a convex combination that conserves flux; field-constant parameters

*Model/proof*: M_Grid models the weights and sums; P_Grid3 proves convexity, nearest neighbours, flux and bounds of weighted means. np.polyfit is a parameter.

*Status*: proved. *Theorems*: `C71_convex`, `C71_inverse_distance`, `C71_flux`, `C71_parameters`, `C71_on_position_refuted`, `C71_bad_fits_favoured_refuted`, `C71_lengths`. Exact reals; a division by zero (inf/nan in NumPy) is the error NonFinite.

### C53 — The tomographic reconstructor is the linear estimator of least error

*Model/proof*: M_Tomo models the matrices frequency by frequency; P_Tomo proves that the reconstructor satisfies the normal equation in both branches (kernel argument for the generalised inverse) and that the normal equation characterises minimisers of the quadratic criterion. L_Ginv exhibits a generalised inverse and a solver.

*Status*: proved. *Theorems*: `C53_minimum_error`, `C53_never_worse`, `C53_single_noise_correlated_refuted`. Exact complex arithmetic (the code uses complex64). np.linalg.solve and pinv are parameters constrained to be exact; an instance is proved to exist.

### C72 — Noise and spatio-temporal spectra of a tomographic system

*Model/proof*: Quadratic forms of Hermitian matrices (L_Tomo); P_Tomo2 gives closed forms.

*Status*: proved. *Theorems*: `C72_residual`, `C72_noise`, `C72_noise_gain`, `C72_beyond_mirrors`, `C72_noise_free_refuted`, `C72_noise_free_sizes`. 

### C73 — The optimal projector from layers to mirrors

*Model/proof*: P_Tomo3: algebra of the rank-one Gram matrix (one direction), normal equation (several).

*Status*: proved. *Theorems*: `C73_one_direction_exact`, `C73_cutoff`, `C73_regularised_least_squares`, `C73_attenuation_refuted`, `C73_not_hermitian_refuted`. The least-squares optimality with several directions holds for real Gram matrices (one mirror, or directions symmetric about the axis), as stated; for others it is false of the code (plain transpose), as C73_not_hermitian_refuted shows.

### C74 — Cone effect of one laser guide star is bounded by the turbulence

*Model/proof*: Model: M_Cone.v, 1001 samples and 5 phases as in the code, masks and np.interp. Proof: variance inequality for the bound, positivity of the variance of a sine through trigonometric arguments for definedness.

*Status*: proved. *Theorems*: `C74_bounds`, `C74_ground`, `C74_beyond_cutoff`, `C74_defined`, `C74_layer_at_laser_refuted`, `C74_several_mirrors_refuted`. The two _refuted theorems record the cases where the claim fails in the code.

### C75 — Wind shake keeps exactly the residual power of the vibrations; modal filters

*Model/proof*: Model: M_Cone.v (np.interp with zero outside, complex rejection transfer function, normalised tilt shape); proofs by algebra on the sums and the triangle inequality.

*Status*: proved. *Theorems*: `C75_total`, `C75_power_bound`, `C75_open_loop`, `C75_slow_loop_refused`, `C75_tilt_filter`, `C75_focus_filter`, `C75_bessel_recurrence`, `C75_phase_cancellation_refuted`, `C75_bessel_negative_refuted`. SciPy's j0, j1 are arbitrary functions in the theorems.

### C76 — Structure function of the angular anisoplanatism

*Model/proof*: Model: M_Aniso.v on top of the exact DFT; proofs through the structure-function lemmas of L_Fourier; the laser's state is threaded through the call. The focal part (focal_angular_function) is a parameter.

*Status*: proved. *Theorems*: `C76_structure_function`, `C76_formula`, `C76_exchange`, `C76_defined`, `C76_laser_restored`, `C76_laser_split`, `C76_modes`, `C76_laser_after_failure_refuted`, `C76_two_lasers_refuted`, `C76_off_axis_refuted`, `C76_spectrum`. _refuted theorems: cases where the claim fails. NumPy >= 1.24 for the ragged triple.

### C77 — Wavefront errors of the anisoplanatism

*Model/proof*: Model: M_Aniso.v; real powers as Rpower with 0 handled; polynomial positivity by sums of squares.

*Status*: proved. *Theorems*: `C77_focal_error`, `C77_focal_monotone`, `C77_anisokinetism`, `C77_angular_error`, `C77_unknown_method`, `C77_two_formulas_refuted`, `C77_units_refuted`, `C77_weights_ignored_refuted`, `C77_cross_term_refuted`, `C77_kernel_negative_refuted`. _refuted theorems: claims that fail in the code.

### C78 — Residual phase structure function reconstructed from the covariance of the mirror modes

*Model/proof*: Model: M_Psfr.v (exact DFT; svd and spline interpolation to another size are parameters). Specification: S_Psfr.v (sums over pairs of pixels). Proof: correlation theorem on the zero-padded grid.

*Status*: proved. *Theorems*: `C78_residual`, `C78_range`, `C78_defined`, `C78_null_covariance_refuted`, `C78_transposed_refuted`, `C78_noise_sign_refuted`, `C78_Uij_refuted`, `C78_overlap_size`. _refuted theorems: claims that fail in the code. svd is a parameter constrained by its contract.

### C79 — On-axis structure functions, pixel OTF and their sum in the PSF reconstruction

*Model/proof*: Model: M_Psfr.v; Cauchy-Schwarz for the measured covariance, structure function lemmas of L_Fourier, zero-padding of the spectrum.

*Status*: proved. *Theorems*: `C79_jitter`, `C79_jitter_range`, `C79_jitter_angle`, `C79_slopes_cov`, `C79_pixel`, `C79_fitting`, `C79_fitting_seeing`, `C79_aliasing`, `C79_aliasing_atm`, `C79_commands`, `C79_commands_cov`, `C79_commands_undefined`, `C79_sum_onaxis`, `C79_sum_aniso`, `C79_sum_range`, `C79_noise_subtraction_refuted`, `C79_profile_length_refuted`, `C79_pixel_symmetry`. _refuted theorems: claims that fail in the code. Aliasing: AO and OTF grids of the same parity (no interpolation).

### C80 — Error breakdown of the PSF reconstruction

*Model/proof*: Model: M_Psfr.v (nan as an error value). Proof: monotony of exp and sums.

*Status*: proved. *Theorems*: `C80_term`, `C80_term_monotone`, `C80_total`, `C80_defined`, `C80_params`, `C80_roundtrip`, `C80_aliasing_refuted`, `C80_noise_exceeds_refuted`, `C80_params_refuted`, `C80_r0`, `C80_static_term`. _refuted theorems: claims that fail in the code. TIP-TILT-WFE and the split of the anisoplanatism (not in the total) are not modelled.

### C81 — The parametric PSF model (PSFAO21) at one wavelength

*Model/proof*: Model: M_Psfao.v (the spectrum of maoppy, external, is a parameter). Proof: hermitian completion of rfft2 (L_Fourier3), structure function lemmas, C07/C08 through the parsing of the parameter vector.

*Status*: proved. *Theorems*: `C81_structure_function`, `C81_flux`, `C81_strehl`, `C81_defined`, `C81_wfe`, `C81_aniso_refuted`, `C81_position`, `C81_profile_shapes`. _refuted theorem: claim that fails in the code.

### C82 — An evaluation of PSFAO21 does not depend on earlier evaluations

*Model/proof*: Model: M_Psfao.v, state = the static OTF of the frequency domain, run = sequence of calls. Proof: induction on the sequence; a counterexample with a static OTF of one half.

*Status*: proved. *Theorems*: `C82_no_static`, `C82_all_static`, `C82_history_refuted`. _refuted theorem: claim that fails in the code.

### C83 — PSFAO21 with several wavelengths

*Model/proof*: Model: M_Psfao.v (psfao_call_multi; NumPy broadcasting of the background). Proof: unique parsing of the concatenated vector, C08.

*Status*: proved. *Theorems*: `C83_source_wavelength`, `C83_flux`, `C83_defined`, `C83_backgrounds_refuted`, `C83_default_single_refuted`, `C83_default_several_refuted`, `C83_channel`. _refuted theorems: claims that fail in the code.

### C84 — Temporal transfer functions of the diagnosed loops close correctly

*Model/proof*: M_Diag.v models delay_tf, wfs_tf, servo_tf and the loop statements over Coquelicot complex numbers; P_Diag.v proves the algebraic identities, the grid and the sign of the trapezoidal integral.

*Status*: proved. *Theorems*: `C84_closed_loop`, `C84_grid`, `C84_first_frequency_refuted`, `C84_noise_gain`, `C84_noise_gain_refuted`, `C84_gain_defined`, `C84_pi_refuted`. 

### C85 — Noise covariance estimated from telemetry is a covariance matrix of increments

*Model/proof*: M_Diag.v models roll, mean subtraction in place and the double-difference product; P_Diag2.v proves the increment formula by re-indexing the cyclic sum, and PSD as a sum of squares.

*Status*: proved. *Theorems*: `C85_autocorrelation`, `C85_covariance`, `C85_affine`, `C85_history`, `C85_methods_refuted`, `C85_noise_variance`, `C85_tiptilt_refuted`, `C85_noiseless`. 

### C86 — Wind speed estimated from modal telemetry

*Model/proof*: M_Diag.v models get_wind_speed statement by statement with the 2N-point DFT of Base_DFT; P_Diag3/4/5.v prove the autocorrelation identity by DFT orthogonality, the regression by completing squares, and frozen flow by substitution.

*Status*: proved. *Theorems*: `C86_autocorrelation`, `C86_autocorrelation_max`, `C86_normalised`, `C86_regression`, `C86_exact`, `C86_window`, `C86_window_refuted`, `C86_student`, `C86_student_refuted`, `C86_frozen_flow`, `C86_scaling`, `C86_mode`. 

### C87 — Radial averages, coherence time and atmosphere update after diagnosis

*Model/proof*: M_Diag.v + eqLayers of M_Tools; P_Diag5.v uses C05_eqLayers (conservation of moments) for the update.

*Status*: proved. *Theorems*: `C87_radial_average`, `C87_coherence_time`, `C87_update`, `C87_update_one`. 

### C88 — Segmented pupil: assembly

*Model/proof*: M_Pupil models segment.py and pupil.py with complex pixels as pairs of reals and the point-in-polygon test as an argument; S_Pupil says where a segment lies. Induction over the list of segments; arithmetic of ceilings for the positions.

*Status*: proved. *Theorems*: `C88_segment`, `C88_circle_refuted`, `C88_assembly`, `C88_order`, `C88_flux`, `C88_off_centre_refuted`, `C88_obstruction`. the polygon test of matplotlib is an argument; exact reals

### C89 — Segmented pupil: removal and reflectivity of segments

*Model/proof*: Effect of the removal loop and of the accumulation loop on each pixel, by induction over the list of segments; disjointness makes the sum collapse to one term.

*Status*: proved. *Theorems*: `C89_remove`, `C89_remove_order`, `C89_last_wins`, `C89_reflectivity`, `C89_unit`, `C89_built`, `C89_gap_refuted`, `C89_rotate_refuted`. exact arithmetic: in floats |exp(i phi)| may differ from 1 and removal may then miss pixels

### C90 — Segmented pupil: shifts and phase aberrations

*Model/proof*: Invariant 'the pupil carries the phase maps phi' preserved by each call, then induction over the history.

*Status*: proved. *Theorems*: `C90_shift_zero`, `C90_shift_back`, `C90_shift_out_refuted`, `C90_shift_lost_refuted`, `C90_phase_history`, `C90_phase_inconsistent`, `C90_reflectivity_erases_refuted`. the Zernike modes of the segment are an argument (C36-C37 cover them)

### C91 — Segmented pupil: reset, padding, border

*Model/proof*: Frame invariant: no operation touches sizes, masks or the reference amplitude, whatever its outcome; induction over the history.

*Status*: proved. *Theorems*: `C91_reset`, `C91_reset_positions_refuted`, `C91_zero_pad`, `C91_pad_positions_refuted`, `C91_border`, `C91_border_refuted`, `C91_zero_pad_any_refuted`. segments that do not overlap (pristine) for the reset

### C92 — Segmented pupil: filled gaps

*Model/proof*: Inversion of the construction with fill_gap, then the assembly lemma of C88 on the modified reference.

*Status*: proved. *Theorems*: `C92_filled`, `C92_single_refuted`, `C92_reference`. 

### C93 — Radial profile and encircled energy

*Model/proof*: M_Metric transcribes the argsort / cumulative-sum / where(diff) code; S_Metric states rings, means and sums over pixels directly. Sorted lists of rings, cumulative sums at the ring ends, permutation invariance.

*Status*: proved. *Theorems*: `C93_profile`, `C93_range`, `C93_encircled`, `C93_square`, `C93_encircled_refuted`, `C93_inplace_refuted`, `C93_small_refuted`, `C93_maxradius`, `C93_wedge_refuted`, `C93_stddev`, `C93_stddev_refuted`. exact reals; argsort and the position angle are arguments with their contract

### C94 — Width of a PSF

*Model/proof*: M_Metric2 transcribes the three functions with the image resampling, Gaussian fit and ellipse-free contour candidates as arguments; case analysis of the three-sample interpolations against the polyline of S_Metric.

*Status*: proved. *Theorems*: `C94_width`, `C94_scale`, `C94_border_refuted`, `C94_steep_refuted`, `C94_ratio`, `C94_cutting`, `C94_flat`, `C94_contour_point`, `C94_round_refuted`, `C94_contour_order`, `C94_gaussian_rebin_refuted`, `C94_all_but_one`, `C94_spike`, `C94_contour_box`, `C94_contour_circle`. exact reals; resampling and the Gaussian fit are arguments

### C95 — Strehl ratio and diffraction-limited OTF

*Model/proof*: M_Metric3; convolution theorem for the DFT of Base_DFT, sum of a DFT = N times the first sample, maximum of a positive-definite array at zero lag. Interpolation to another size and centerPsf are arguments.

*Status*: proved. *Theorems*: `C95_otf`, `C95_symmetric`, `C95_convolution_refuted`, `C95_strehl`, `C95_strehl_flux`, `C95_odd_refuted`, `C95_strehl_max`, `C95_inplace_refuted`. image of the size of the OTF (no interpolation); exact reals

### C96 — Covariance matrix to covariance map

*Model/proof*: M_Map; re-indexing of the n^2 x n^2 sum by blocks and collapse of the boolean masks to a window.

*Status*: proved. *Theorems*: `C96_map`, `C96_range`, `C96_stationary`, `C96_quadrant_refuted`, `C96_size`, `C96_diags`. exact reals

### C97 — Focal-angular anisoplanatism maps

*Model/proof*: M_Map transcribes the six covariance terms with the Bessel function as an argument; S_Map gives the structure function from the covariance; evenness of the covariance and the map lemma of C96.

*Status*: proved. *Theorems*: `C97_focal`, `C97_on_axis`, `C97_centre`, `C97_off_axis_refuted`, `C97_filter_identity`, `C97_filter_scale`. without spatial filter and at the natural map size

### C98 — Telescope pupil, non-common path aberrations and static modes

*Model/proof*: M_Tel models the constructor (grid, annulus, loading, Zernike map, static modes); P_Tel proves the pupil clauses by real geometry, P_Tel2 the map (affine image with zero mean and unit mean square), P_Tel3 the counterexamples with the exact Zernike values of C61.

*Status*: proved. *Theorems*: `C98_pupil`, `C98_symmetric`, `C98_obstruction`, `C98_full_disc`, `C98_odd_centre_refuted`, `C98_empty_pupil_refuted`, `C98_ncpa`, `C98_ncpa_none`, `C98_files`, `C98_rectangular_refuted`, `C98_stat_modes`, `C98_cube_refuted`, `C98_orthonormal_refuted`, `C98_pupil_rms_refuted`, `C98_outside_refuted`, `C98_fits_path`. rotate and interpolateSupport(kind='linear') are arguments; the _refuted theorems record where the code departs from the expected behaviour

### C99 — Spider mask

*Model/proof*: M_Spider models the object with the polygon test as argument; P_Spider proves that the four vertices are the counter-clockwise corners of a rectangle in along/across coordinates and deduces the mask in metres; P_Spider2 the corollaries and counterexamples.

*Status*: proved. *Theorems*: `C99_mask`, `C99_symmetric`, `C99_direction_refuted`, `C99_thin`, `C99_mismatch`, `C99_deferred`, `C99_deferred_refuted`, `C99_keck_refuted`, `C99_petals`. hypothesis polygon_test (matplotlib's test is right strictly inside/outside convex polygons), inhabited by ref_test_ok; scipy's label is described by the hypothesis of C99_petals

### C100 — Detector object: fields of view and wavelengths

*Model/proof*: M_Detector models the constructor and __repr__; P_Detector proves each case by induction on the lists.

*Status*: proved. *Theorems*: `C100_detector`, `C100_refused`, `C100_short_scales`, `C100_extra_scales_refuted`, `C100_print`. 

### C101 — Atmosphere used by the reconstructor and guide-star stretching

*Model/proof*: M_Driver models the atmosphere part of the initialisation branch by branch; P_Driver/P_Driver2 prove each clause and its counterexamples.

*Status*: proved. *Theorems*: `C101_modelled`, `C101_uncompressed`, `C101_wind_pairing_refuted`, `C101_single_layer_refuted`, `C101_stretch_ngs`, `C101_stretch_lgs`, `C101_succeeds`, `C101_zero_height_refuted`, `C101_above_refuted`. the _refuted theorems record defects of the code

### C102 — Initialisation: side effects, noise wavelength, repeated initialisation

*Model/proof*: M_Driver models the initialisation as a state transformer on the shared atmosphere and noise list; P_Driver3 proves the side effects and the two-run statements.

*Status*: proved. *Theorems*: `C102_error_flag`, `C102_side_effects`, `C102_noise`, `C102_noise_refuted`, `C102_rerun`, `C102_several_sensors_refuted`, `C102_fov_refuted`. the _refuted theorems record defects of the code

### C103 — Reported PSF metrics

*Model/proof*: M_Driver models the double loop over sources and wavelengths; P_Driver4 proves the report element by element.

*Status*: proved. *Theorems*: `C103_reported`, `C103_encircled`, `C103_ensquared_refuted`, `C103_ensquared`. C103_ensquared_refuted records a defect of the code

### C104 — PSF cube computed by the Fourier model

*Model/proof*: M_Call composes the models of the parameter sorting and of the 3-D/4-D PSF routines as the model's __call__ does, with the static OTF as a state; P_Call proves each clause.

*Status*: proved. *Theorems*: `C104_defaults`, `C104_flux_multi`, `C104_frames_refuted`, `C104_nyquist_refuted`, `C104_strehl`, `C104_pixel_strehl`, `C104_history`, `C104_static_stays_refuted`. the _refuted theorems record defects of the code

### C105 — Image-processing helpers

*Model/proof*: M_Proc models each helper with the random draws, splines and fits as arguments; P_Proc/P_Proc2 prove the statements. createDeadPixFrame always raises TypeError (np.zeros(N,10,2)) and is not modelled.

*Status*: proved. *Theorems*: `C105_noise_mean_refuted`, `C105_noise_variance`, `C105_noise_caller`, `C105_noise_fails`, `C105_centre_flux`, `C105_centre_moves`, `C105_centre_refuted`, `C105_centre_rect`, `C105_dead_pixels_refuted`, `C105_dead_pixels_fails`, `C105_gauss_max`, `C105_gauss_half`, `C105_profile_2d`, `C105_profile_1d`. the _refuted theorems record defects of the code; splines are arguments

### C106 — PSF of a pupil and of a residual-phase PSD

*Model/proof*: M_Psf2 composes the models of the OTF and PSF routines; P_Psf2 proves the correlation/far-field identity by unwrapping the cyclic lags, and the counterexamples by the geometric sum.

*Status*: proved. *Theorems*: `C106_fraunhofer`, `C106_pupil_psf`, `C106_piston`, `C106_psd_value`, `C106_psd_sum`, `C106_psd_negative_refuted`, `C106_undersampled_refuted`. the _refuted theorems record defects or limits of the code

### C107 — Distributing test files over sub-folders

*Model/proof*: M_Gen models the file system as a partial map and the shuffle as an arbitrary permutation; P_Gen proves the distribution by counting, and the nearest-divisor search by induction.

*Status*: proved. *Theorems*: `C107_number`, `C107_refusals`, `C107_tie_refuted`, `C107_split`, `C107_total`. _refuted: refused requests that could be met

### C108 — Parameter values of a generated data base

*Model/proof*: M_Gen takes the draws as functions; P_Gen2 proves the interval statements and monotonicity of rounding.

*Status*: proved. *Theorems*: `C108_values`, `C108_secondary`, `C108_accepted`, `C108_rounding_refuted`. _refuted: the rounded edges leave the bounds

### C109 — Images of a generated data base

*Model/proof*: M_Gen composes the Fourier model; P_Gen2 proves the totals with the PSF lemmas and the independence from r0 by definition unfolding over all tables.

*Status*: proved. *Theorems*: `C109_r0_refuted`, `C109_spectrum`, `C109_image`, `C109_total`, `C109_noise`, `C109_test_count`, `C109_static_coefficients`. _refuted: r0 labels images it does not influence

### C110 — Seeing-monitor tables

*Model/proof*: M_Mass models the conversion, the search and the combination; S-part of P_Mass is the Gregorian calendar.

*Status*: proved. *Theorems*: `C110_universal_time`, `C110_month_end_refuted`, `C110_hours`, `C110_nearest`, `C110_answers`, `C110_midnight_refuted`, `C110_far_record_refuted`, `C110_combine`, `C110_r0`, `C110_append`. downloads and parsing are not modelled; the parsed rows are arguments

### C111 — Quantities derived from a Keck image header

*Model/proof*: M_Keck models the header as a partial map; P_Keck proves the normal equations of the regression and the optimality.

*Status*: proved. *Theorems*: `C111_delay`, `C111_stage`, `C111_airmass`, `C111_noise`, `C111_duplicates`, `C111_triple_refuted`, `C111_profile`, `C111_regression`, `C111_sampling`, `C111_scale`, `C111_instrument_angle`. np.polyfit is modelled as the exact least-squares line

### C112 — OTF from a zonal phase covariance

*Model/proof*: M_Zonal models the point locations, the pair search and the averaging; P_Zonal proves the value of every entry as a mean over pairs of actuators.

*Status*: proved. *Theorems*: `C112_value`, `C112_otf`, `C112_symmetric`, `C112_piston`, `C112_no_mask_refuted`. _refuted: without a mask only the first n actuators' covariances matter; interpolation to another size is an argument of the model; np.object raises AttributeError on NumPy >= 1.24

### C113 — Spectrum of the phase reconstructed from slopes

*Model/proof*: M_Zonal models both functions over the DFT of Base_DFT; P_Zonal2 proves Parseval and the roll identity.

*Status*: proved. *Theorems*: `C113_spectrum`, `C113_refused`, `C113_open_loop_refuted`. _refuted: the frame shifts of the open-loop slopes

### C114 — Screening of SPHERE data and wavefront-sensor tables

*Model/proof*: M_Sphere models the chained comparison as Python parses it and the tables; P_Sphere proves the screening inert.

*Status*: proved. *Theorems*: `C114_screening_refuted`, `C114_answers`, `C114_sensor`, `C114_tables`, `C114_window_refuted`. _refuted: screening moves only folders without SPARTA file; window 1.5 unreachable; FWHM and header values are inputs of the model

### C115 — Tip-tilt filter and low-wind-effect error

*Model/proof*: M_Sphere models the functions with the pseudo-inverse as an argument; P_Sphere2 proves the projection from the Penrose conditions and shows they can be met.

*Status*: proved. *Theorems*: `C115_filter`, `C115_projection`, `C115_refused`, `C115_coefficients`, `C115_lwe_value`, `C115_lwe_tilt_free`, `C115_lwe_zero_refuted`. pinv is an argument satisfying the four Penrose conditions (pinv2_exists: such a function exists)

### C116 — Sorting telemetry files and recentring frames

*Model/proof*: M_Sphere models the folder as a map from names to contents and NumPy slicing with negative bounds; P_Sphere4 proves the moves and the recentring.

*Status*: proved. *Theorems*: `C116_sorted`, `C116_date`, `C116_recentred`, `C116_accepted`, `C116_small_frame_refuted`. _refuted: frame smaller than the window; order in which dates are visited is not modelled (dates are distinct)

### C117 — Row of the SPHERE data base

*Model/proof*: M_Sphere models the functions with the call of psfFitting as an argument; P_Sphere3 proves the alignment of names and values.

*Status*: proved. *Theorems*: `C117_names`, `C117_guess`, `C117_fixed`, `C117_row`, `C117_fwhmy_refuted`, `C117_no_strehl_refuted`. the fit is an argument that keeps the number of parameters; without static modes the code runs it twice

### C118 — Resampling of images and transfer functions

*Model/proof*: M_Interp models the three kinds (the cubic spline as an argument that passes through its samples); P_Interp.

*Status*: proved. *Theorems*: `C118_bilinear`, `C118_range`, `C118_superposition`, `C118_common`, `C118_centre`, `C118_decimation`, `C118_even`, `C118_even_refuted`, `C118_nearest`, `C118_nearest_centre_refuted`, `C118_refused`, `C118_shannon`. the FITPACK spline is an argument required only to pass through its samples

### C119 — Phase on petals, rotation and resizing of a pupil

*Model/proof*: M_Pupil2 models the state of the pupil object and the calls; P_Pupil8.

*Status*: proved. *Theorems*: `C119_petal`, `C119_pistons`, `C119_twice_refuted`, `C119_dropped`, `C119_negative_refuted`, `C119_nothing`, `C119_rotation`, `C119_angle_refuted`, `C119_resize`, `C119_resize_back_refuted`, `C119_reset_refuted`. scipy's rotation is an argument; resizing with the nearest kind

### C120 — Theoretical error budget of an AO system

*Model/proof*: M_AoWfe models errorBreakdown and the loop bandwidth; P_AoWfe.

*Status*: proved. *Theorems*: `C120_breakdown`, `C120_answers`, `C120_total`, `C120_achromatic`, `C120_faster`, `C120_few_actuators_refuted`, `C120_second_order_refuted`. the mean wind and the noise variances are those of the atmosphere and sensor models

### C121 — Evaluating a network: reading its results and measuring its accuracy

*Model/proof*: M_Deep models the reader (tokens) and the metrics on exact reals; P_Deep.

*Status*: proved. *Theorems*: `C121_read`, `C121_labels`, `C121_refused`, `C121_metrics`, `C121_perfect`, `C121_affine`, `C121_undefined`, `C121_units`, `C121_p2x`, `C121_diff`, `C121_mse`, `C121_accuracy`, `C121_last_line_refuted`, `C121_repeat_refuted`, `C121_last_mode_refuted`, `C121_mean_bias_refuted`. text is tokenised by the environment: a token is a number or a word

### C122 — Names and consistency of a training data base

*Model/proof*: M_Deep models both functions on tokenised names; P_Deep2.

*Status*: proved. *Theorems*: `C122_recover`, `C122_recover_refused`, `C122_file`, `C122_file_refused`, `C122_static`, `C122_verify`, `C122_counts`, `C122_single_refuted`, `C122_out_of_range_refuted`, `C122_last_rank_refuted`. rounding of the lower bound is a parameter; the fits of verification 3 are an outcome (fit_ok)

### C123 — Open-loop operation

*Model/proof*: openLoop in M_Model2; P_Tight.

*Status*: proved. *Theorems*: `C123_open_loop`, `C123_infinite_scale`, `C123_one_plane_refuted`. the Bessel function of the piston filter is abstract

### C124 — Zernike statistics, actuators and photons from telemetry

*Model/proof*: M_Diag2 models the four; the modes and the pseudo-inverse are an arbitrary function; P_Diag6.

*Status*: proved. *Theorems*: `C124_covariance`, `C124_no_piston`, `C124_zero_mean`, `C124_static`, `C124_scale`, `C124_weights`, `C124_integer_delay_refuted`, `C124_roll_refuted`, `C124_no_interpolation`, `C124_tiptilt_refuted`, `C124_select`, `C124_select_valid`, `C124_one_diameter_refuted`, `C124_photons`. the matrix from commands to Zernike coefficients (pseudo-inverse) is an arbitrary function of its inputs

### C125 — Calibration of the PSF over a field

*Model/proof*: M_Calib composes the functions of M_Grid; detection, fit and model are arbitrary functions; P_Calib.

*Status*: proved. *Theorems*: `C125_all_detected`, `C125_undetected_ignored`, `C125_too_few_refuted`, `C125_one_missing_refuted`, `C125_guess`, `C125_fits`, `C125_points`, `C125_points_refuted`, `C125_counts`, `C125_default_limits_refuted`, `C125_flux`, `C125_radial`. star detection (photutils), the minimiser and the PSF model are arbitrary functions; np.argsort any sorting function

### C126 — Catalogues of stars are read exactly

*Model/proof*: read_catalog in M_Calib, words and their conversion abstract; P_Calib2.

*Status*: proved. *Theorems*: `C126_catalog`, `C126_bad_line`, `C126_skip_zero_refuted`, `C126_skip_many_refuted`. 

### C127 — Central symmetry of the residual spectrum

*Model/proof*: M_Model spectra at opposite pixels; opposite pixels and the reversed offset of the frequency arrays are in S_Sym; conjugation commutes with every filter, so moduli agree. The aliasing sum is reindexed by (m,n) -> (-m,-n); on the axis it reduces to the folded von Karman spectrum and the telescoping boundary term gives the sign.

*Status*: proved. *Theorems*: `C127_symmetry`, `C127_aliasing_orders`, `C127_aliasing_axis`, `C127_aliasing_refuted`. the expectation that the aliasing spectrum is symmetric as well is refuted (C127_aliasing_refuted, on the axis without the 1e-10 offset); C127_aliasing_orders is exact for every offset

### C128 — Scaling of the residual error with the turbulence strength

*Model/proof*: S_Scale gives the rescaled system and what scaled means; each spectrum of M_Model is linear in the turbulence spectrum once the reconstructor is shown to depend on the noise-to-turbulence ratio only.

*Status*: proved. *Theorems*: `C128_r0`, `C128_ratio`, `C128_open_loop`, `C128_wavefront_error`. 

### C129 — Anisoplanatism vanishes with the angle and with the altitude

*Model/proof*: M_Model; 2(1-cos t) <= t^2 and Cauchy-Schwarz, layer by layer; the second moment of the altitudes and the stretched system are defined next to the theorems.

*Status*: proved. *Theorems*: `C129_bound`, `C129_invariance`, `C129_refraction`. 

### C130 — Parameters of an observation read from the SPHERE archive

*Model/proof*: M_Sparta models the readers on the content of files and headers; the nearest sample is the argmin of the time differences, and the window property follows from the order of the time stamps.

*Status*: proved. *Theorems*: `C130_window`, `C130_photons`, `C130_no_table`, `C130_statistics`, `C130_header`, `C130_temperature`, `C130_date`, `C130_missing_refuted`, `C130_order_refuted`. the findings are the two _refuted theorems

### C131 — PSF reconstruction over a data base and over simulations

*Model/proof*: M_PsfrRun models file selection on strings (lexicographic sort, substring tests, splits), the row as a list of cells, the merge with an arbitrary sorting function; sorting facts are proved from a total order on strings.

*Status*: proved. *Theorems*: `C131_runs`, `C131_listing_order`, `C131_row`, `C131_columns_refuted`, `C131_database`, `C131_one_failure`, `C131_incomplete`, `C131_merge`, `C131_merge_again`, `C131_patterns`, `C131_true_r0`, `C131_true_column_refuted`, `C131_tau0_unit_refuted`, `C131_seeing_factor`, `C131_capitals`, `C131_strehl_columns`. the findings are the _refuted theorems

### C132 — Telemetry of the Keck adaptive optics

*Model/proof*: M_Telemetry models the series as functions with sizes; telescoping sum for the rate, induction on the map for the filling, variances for the error; the float stored in nActu1D is a tag refused by linspace.

*Status*: proved. *Theorems*: `C132_zero_mean`, `C132_wfe`, `C132_wfe_offset`, `C132_wfe_still`, `C132_wfe_scale`, `C132_fill`, `C132_rate`, `C132_decimate`, `C132_decimated_mean_refuted`, `C132_servo`, `C132_tiptilt`, `C132_crop`, `C132_crop_edge_refuted`, `C132_saturation`, `C132_weights`, `C132_hours`, `C132_influence_refuted`, `C132_tilt_unit`. the findings are the _refuted theorems

### C133 — Telemetry of simulated data

*Model/proof*: Finite sums: exchange of the sums over time and channels.

*Status*: proved. *Theorems*: `C133_residual`, `C133_offset`, `C133_wfe`, `C133_atmosphere`. 

### C134 — Images of unshifted sources are symmetric

*Model/proof*: M_Psf and Base_DFT: the real part of the inverse DFT of a real array is even; crop and bin index arithmetic. A concrete 2x2 tilted pupil and a two-frequency OTF for the findings.

*Status*: proved. *Theorems*: `C134_symmetric_3D`, `C134_symmetric_4D`, `C134_static_tilt_refuted`, `C134_binned_refuted`. the findings are the _refuted theorems

### C135 — What improves the correction and what degrades it

*Model/proof*: Closed forms of the filter g/(g+m) and of the noise |conj(sx)^2+conj(sy)^2|/(g+m)^2 from L_Model; monotony of Rpower.

*Status*: proved. *Theorems*: `C135_fitting`, `C135_outer_scale`, `C135_regularisation_bias`, `C135_noise_bias`, `C135_regularisation_noise`. 

### C136 — Unknown keys of a parameter file have no effect

*Model/proof*: M_Config: every stage reads its section only through the names of a separate table (known_table); two files that agree on them give the same result.

*Status*: proved. *Theorems*: `C136_unknown_key_ignored`, `C136_misspelt`. the table known_table of P_Config9.v is the specification

### C137 — Automatic fit of a directory of Keck images

*Model/proof*: M_KeckFit on top of M_Config and M_Keck: the file is a dictionary, images and fits are inputs; C136 removes the keys that are not understood; induction over the draws and over the 111 names.

*Status*: proved. *Theorems*: `C137_stat_modes_no_effect`, `C137_unknown_mode`, `C137_adjusted_system`, `C137_adjusted_unchanged`, `C137_broadband_refused`, `C137_unknown_mask`, `C137_date`, `C137_dictionary`, `C137_short_table_refused`, `C137_draw`, `C137_table`, `C137_table_readback`, `C137_names`, `C137_other_mode_count`, `C137_all_files_refuted`, `C137_nonvacuous`, `C137_table_nonvacuous`. text of a NumPy array read back by eval: only its being a list or not is modelled

### C138 — From an AO system to the images

*Model/proof*: M_Chain composes the definitions of the stage models (frequency domain, initialisation, contributions, assembly, structure function, PSF). C138_psd, C138_structure_function and C138_images are proved of every successful run by transporting the theorems of the stages through the composition; C138_defined shows that the run exists for every well-sampled single-wavelength Shack-Hartmann system; C138_nonvacuous gives one.

*Status*: proved. *Theorems*: `C138_psd`, `C138_structure_function`, `C138_images`, `C138_defined`, `C138_budget`. Scope: one natural guide star, no laser guide star, closed loop, normalizePSD, TiltFilter, getPSDatNGSpositions and nyquistSampling off, no wind-shake file; telescope OTFs (static, diffraction-limited) are arguments with the bound of C07 as hypothesis; exact reals.

### C139 — From a parameter file to the images

*Model/proof*: M_Chain2.v composes the parsing model M_Config with M_Chain (read_system lists which attribute each quantity comes from); P_Chain4.v proves that an accepted physical file is a physical system of C138.

*Status*: proved. *Theorems*: `C139_file_is_physical`, `C139_read`, `C139_psd`, `C139_images`. Scope of M_Chain: one natural guide star; the noise variances are given in the file. Case: C139_nonvacuous (file accepted, read and physical).

### C140 — The blur requested by SpotFWHM

*Model/proof*: P_Blur.v gives the transfer function of a Gaussian of given full width independently of the code and identifies the kernel of the 4-D and 3-D functions; P_Blur2.v lifts it to the composed computation of M_Chain by showing that the channel with jitter equals the channel without it on the blurred optics.

*Status*: proved. *Theorems*: `C140_blur`, `C140_blur_4D`, `C140_blur_width_refuted`, `C140_blur_3D_4D`, `C140_blur_strehl`, `C140_blur_angle`, `C140_blur_monotone`, `C140_spot_strehl`. The width found is 8 ln2/pi times the requested one (C140_blur_width_refuted: the factor exceeds 1). C140_blur, C140_blur_4D: jitter angle 0; C140_blur_angle, C140_blur_strehl, C140_blur_monotone, C140_spot_strehl (composed computation): any angle. Cases: C140_nonvacuous, C140_strehl_nonvacuous, C140_spot_nonvacuous.

### C141 — A science source does not depend on the other science sources

*Model/proof*: Two runs of the chain of C138 (M_Chain.v) with different science sources: the parts that depend on the source read its azimuth and its direction relative to the guide star only (P_Chain5.v parts_same), so the spectra and structure functions are equal; the PSF stage uses of a source its structure function only (psf_star). Scope as C138.

*Status*: proved. *Theorems*: `C141_source_alone`, `C141_images`. Composed computation of C138 (one natural guide star, closed loop, normalizePSD=False). Case: C141_nonvacuous.

### C142 — The residual phase does not depend on how the images are formed

*Model/proof*: Two runs of the chain of C138 (M_Chain.v) with different camera settings, optics and pixel option: every stage before the PSF is shown equal (P_Chain6.v C142_residual_phase); the channel with the pixel is shown equal to the channel without it on the multiplied static transfer function (pixel_4D), and lifted (C142_pixel); C104_pixel_strehl gives the Strehl ratios. Scope as C138.

*Status*: proved. *Theorems*: `C142_residual_phase`, `C142_pixel`, `C142_pixel_strehl`. Composed computation of C138 (one natural guide star, closed loop). Case: C142_nonvacuous; with a spot: C140_spot_nonvacuous.

## 4. Findings about the code (theorems named `_refuted`)

Each line is a natural reading of the API that the model shows to be false of the code, with the theorem that says so.
They are statements about the pinned commit, proved about the model; none was patched.

* `C02_crop_enlarge_odd_refuted` (P_Image.v): otherwise one row is lost: the round trip fails for every image.
* `C04_constructor_refuted` (P_Freq.v): see the statement; property: The wavelength vector of a spectral cube samples each band completely
* `C04_single_bin_refuted` (P_Freq.v): with a single bin the sample is the blue edge of the band, not its centre.
* `C06_odd_grid_refuted` (P_Fourier.v): a PSD that contains only the zero frequency (piston), whose structure function is identically zero, gets a non-zero one.
* `C09_short_mono_refuted` (P_Tools.v): ... but silently accepted with one wavelength: one flux and no position gives an empty list of positions (finding).
* `C10_odd_refuted` (P_Image.v): Refuted for odd squares: every positive odd-sized centred PSF has a curve that reaches one and then drops at its last point.
* `C10_offcentre_refuted` (P_Image.v): Refuted off-centre: a peak in the upper half gives a zero energy.
* `C11_adaptive_refuted` (P_Tools.v): ring i should get min(cap, max(3, ceil(2 pi i))) points. With the default cap (180), no ring beyond the first does.
* `C12_fftsym_refuted` (P_Fourier.v): whatever the size n >= 2, fftsym is not the reversal x(-u): some array is not reversed (its last row and column are zeroed).
* `C14_odd_no_origin_refuted` (P_Freq.v): see the statement; property: Spatial frequency grids contain the origin at the array centre
* `C16_slab_stale_refuted` (P_Atmo.v): after any real change of wavelength every slab still has the strength of the construction wavelength while claiming the new wavelength.
* `C18_scalar_wind_refuted` (P_Atmo.v): with the documented scalar wind (the default 0.0) the call raises.
* `C18_temporal_refuted` (P_Atmo.v): see the statement; property: Angular and temporal covariance at zero separation give the phase variance
* `C19_pyramid_infinite_flux_refuted` (P_Sensor.v): a pyramid with the default (infinite) photon number has no finite variance (nan), a Shack-Hartmann has none at all (0).
* `C20_short_list_refuted` (P_Sensor.v): a list that is too short. The caller's list object is always extended by one nested list of zeros. If two or more entries are missing the call raises IndexError; if exactly one is missing the call succeeds but the last sensor receives the list [0] as its photon number.
* `C21_heights_refuted` (P_Source.v): different heights for different sources: a NumPy array is refused whatever its length, and a list is accepted for one source with a wrong length.
* `C21_mismatch_accepted_refuted` (P_Source.v): unequal lists are accepted by the constructor and only fail when the directions are read.
* `C21_multi_wavelength_broadcast_refuted` (P_Source.v): one zenith angle with several azimuths AND several wavelengths is accepted as one source and its direction cannot be read.
* `C23_expansion_refuted` (P_Freq.v): the reference factor may be smaller than the factor of another wavelength (0.9 and 1.9 pixels per lambda/D).
* `C26_chromatism_unmasked_refuted` (P_Model2.v): see the statement; property: Every PSD contribution and their total are non-negative and additive
* `C26_normalisation_refuted` (P_Model3.v): normalising to a given wavefront error does not give that error: the sum over the pixels and all the sources of the correction errors is wfe^2 times the conversion factor applied a second time.
* `C26_weight_excess_refuted` (P_Model.v): weights summing to slightly more than one (accepted by the configuration check up to 1.001) give a negative spatio-temporal PSD: here for every system without wind, at every corrected frequency, on axis.
* `C30_upper_bound_refuted` (P_Memory.v): see the statement; property: The memory estimate is an upper envelope
* `C31_update_layout_refuted` (P_Bounds.v): the updated bounds have a fixed layout (seven PSD parameters, one source, one wavelength): they do not match the parameters of any other configuration, and they allow negative jitters, refused before.
* `C34_reconfiguration_idempotent_refuted` (P_Config7.v): the field of view after 0, 1, 2 further configurations with the expansion
* `C36_existing_absolute_file_hidden_refuted` (P_Config5.v): the priority of the aoSystem prefix hides an existing absolute file
* `C37_findNM_other_list_refuted` (P_Zernike.v): see the statement; property: Noll indices map one-to-one onto Zernike orders
* `C39_Q_band_refuted` (P_Air2.v): The Q band: at the default conditions the refractivity falls from above 3.1e-4 at 16 um to below 1.91e-4 at 28 um (2.71e-4 at 20 um; it varies by less than 5 % over the whole 1.3-16 um range, C39_default_infrared), and it is negative at 28 um for -10 C, 600 hPa, 90 %: the fifth-order coefficients of the table cannot be right. Finding.
* `C40_bounds_need_mask_refuted` (P_Fit.v): bounds given without a mask of fixed parameters are never accepted; with any other method than 'trf' the bounds are silently ignored.
* `C40_integer_guess_refuted` (P_Fit.v): with a guess made of integers only and a mask, the free parameters are truncated: every vector given to the model, and the answer, is made of integers.
* `C40_other_methods_ignore_bounds_refuted` (P_Fit.v): see the statement; property: A fit moves only the free parameters, within bounds, and minimises the documented criterion
* `C41_crop_refuted` (P_Psf.v): asking for 14 pixels of an 18-pixel field of view always raises, because the cropped image has 13 pixels.
* `C42_shift_4D_refuted` (P_Psf.v): ... but for kRef = k = 2 an (even) displacement dx moves the PSF by dx/2.
* `C44_default_stellar_refuted` (P_Psf.v): inputs that the 4-D function accepts in its signature but always refuses. Default stellar parameters:
* `C44_monochromatic_shift_refuted` (P_Psf.v): one wavelength, several sources, some displacement:
* `C44_zero_jitter_refuted` (P_Psf.v): Nyquist sampling, several wavelengths, zero jitter given explicitly:
* `C46_fov_check_refuted` (P_Freq.v): ... but it is evaluated at the atmosphere wavelength and in oversampled pixels: a field too small by any factor is accepted, and the correction area then does not fit: NumPy refuses the assignment.
* `C47_single_L0_list_refuted` (P_Atmo.v): A one-element list L0=[x] is kept as a list: every statistic raises TypeError.
* `C48_modes_exceed_actuators_refuted` (P_Source.v): the controlled modes can outnumber the actuators (5 x 5 mirror: orders up to 6, i.e. 28 Zernike modes for 25 actuators).
* `C48_repr_refuted` (P_Source.v): no mirror can be displayed.
* `C49_shown_delay_refuted` (P_Source.v): the low-order delay is displayed in ms with the high-order frame rate, hence wrong whenever the two rates differ.
* `C50_open_loop_refuted` (P_Model.v): see the statement; property: Loop transfer functions
* `C53_single_noise_correlated_refuted` (P_Tomo.v): a single noise variance given for several guide stars is not taken as the variance of each sensor: it fills the whole covariance matrix, as if the sensors had the same noise sample. With two or more values of another length, the call fails.
* `C54_background_removed_refuted` (P_Flux.v): Refuted: a uniform background is removed from the flux.
* `C60_coo_stars_azimuth_refuted` (P_Config7.v): stars given as coordinates: the azimuth attribute (in degrees elsewhere) is set in radians and with x and y exchanged
* `C62_unit_norm_refuted` (P_Zernike2.v): several modes: unitNorm is refused unless their number is the resolution (or the grid has one pixel), and in that case all off-diagonal pixels are zeroed
* `C62_user_coordinates_refuted` (P_Zernike2.v): coordinates given by the user, unit normalisation and arguments of another type: findings
* `C64_early_stop_refuted` (P_Zernike3.v): the stopping rule compares the moduli of consecutive terms, so it can stop although the rest is large: the exponential series 0F0 at 1 gives 2: finding
* `C65_lag_shift_refuted` (P_Zernike4.v): see the statement; property: Tilt covariance is symmetric and the anisokinetism vanishes on axis
* `C65_tilt_ignored_refuted` (P_Zernike4.v): findings: the tilt argument of anisokinetism has no effect, an unknown kind of tilt is only detected by an unbound name, and the lag shifts by sqrt 2 times the distance covered by the wind
* `C66_fewer_reconstructed_layers_refuted` (P_Fit3.v): with several layers, fewer reconstructed ones (n_param_atm = min) than the model reads as Cn2 (nL): the reported PSF has a null flux, the background and not the jitter of the fit
* `C66_no_jitter_refuted` (P_Fit3.v): psfR has no jitter parameters, but three are counted. The flux and the shifts of the fit are kept, the background becomes 1 and up to three static modes are erased (one star).
* `C66_several_wavelengths_refuted` (P_Fit3.v): several wavelengths: 3 entries per star are erased instead of 3 per star and wavelength; here the second shift of the only star is kept
* `C67_argument_saturated_refuted` (P_Fit3.v): otherwise the saturation is written in the caller's cube; an image (2-D) is returned unsaturated
* `C67_image_unsaturated_refuted` (P_Fit3.v): see the statement; property: imageModel stacks and saturates
* `C68_cube_refuted` (P_Fit3.v): see the statement; property: Quality metrics of a fit
* `C69_edge_repeated_refuted` (P_Grid.v): a star whose window leaves the image is refused, unless one single row (or column) of it is inside. Finding: then that row is repeated over the whole sub-image.
* `C70_no_limit_refuted` (P_Grid2.v): a limit of magnitude left to None, the default of generate_psfs_grid_from_image, is never accepted; so is an unknown criterion
* `C70_odd_window_refuted` (P_Grid2.v): for an odd number of pixels, the border nPx//2 used by generate_psfs_grid_from_image is half a pixel too small: an eligible star next to the lower edge of the image cannot be extracted
* `C71_bad_fits_favoured_refuted` (P_Grid3.v): with several PSFs per segment the worst fits weigh the most: two PSFs at the same distance are averaged with weights proportional to their mean-square errors
* `C71_on_position_refuted` (P_Grid3.v): a target at the very position of an input PSF gives no finite result (if that PSF is among the neighbours kept; always the case here: one PSF)
* `C72_noise_free_refuted` (P_Tomo2.v): a noise-free tomographic system has no noise spectrum: when the first noise variance is zero, an array without the axis of the sources is returned, that cannot be stored among the contributions unless the sizes happen to agree.
* `C73_attenuation_refuted` (P_Tomo3.v): with several directions, a mirror at the altitude of the only layer does not reproduce it: the commands are those of the layer times a factor smaller than one (but at least cond/(cond+1)). With one direction the factor is exactly one.
* `C73_not_hermitian_refuted` (P_Tomo3.v): see the statement; property: The optimal projector from layers to mirrors
* `C74_layer_at_laser_refuted` (P_FocalAniso.v): (1) a layer at the altitude of the laser gives no finite result as soon as one frequency is at least 1e-5; (2) with several mirrors the cut-off frequencies are compared layer by layer with those of the mirrors: the call fails unless there are as many mirrors as layers.
* `C74_several_mirrors_refuted` (P_FocalAniso.v): see the statement; property: Cone effect of one laser guide star is bounded by the turbulence
* `C75_bessel_negative_refuted` (P_WindShake.v): J_(-n) = (-1)^n J_n fails for every even order (the code reads -1\*\*n as -(1\*\*n)).
* `C75_phase_cancellation_refuted` (P_WindShake.v): see the statement; property: Wind shake keeps exactly the residual power of the vibrations; modal filters
* `C76_laser_after_failure_refuted` (P_Aniso.v): an exception in the focal part leaves the laser on the axis; two lasers make the test of the altitude ambiguous (ValueError).
* `C76_off_axis_refuted` (P_Aniso.v): with a natural guide star, every source off the direction of the guide star makes the frequency domain fail, whatever the structure function (the triple is not unpacked).
* `C76_two_lasers_refuted` (P_Aniso.v): see the statement; property: Structure function of the angular anisoplanatism
* `C77_cross_term_refuted` (P_Aniso2.v): with the tip and tilt modes X(i,j) = x(j), Y(i,j) = x(i) the cross terms of the quadratic form are lost (X \* transpose(Y) is X^2): the kernel is (c00 + c01) X^2 + (c11 + c10) Y^2, which can be negative for a definite covariance.
* `C77_kernel_negative_refuted` (P_Aniso2.v): see the statement; property: Wavefront errors of the anisoplanatism
* `C77_two_formulas_refuted` (P_Aniso2.v): the two functions documented as the focal anisoplanatism error in nm do not agree: the one used by the error budget is strictly smaller as soon as a layer of positive weight is above the ground.
* `C77_units_refuted` (P_Aniso2.v): see the statement; property: Wavefront errors of the anisoplanatism
* `C77_weights_ignored_refuted` (P_Aniso2.v): this error ignores the strength of the layers and r0: any weights and any r0 give the same value.
* `C78_Uij_refuted` (P_Psfr2.v): see the statement; property: Residual phase structure function reconstructed from the covariance of the mirror modes
* `C78_noise_sign_refuted` (P_Psfr2.v): the sign of the covariance is lost. When more noise is subtracted than measured (covariance -c I), the structure function is the one of +c I.
* `C78_null_covariance_refuted` (P_Psfr.v): without covariance (a perfect correction) the function fails instead of giving the diffraction-limited OTF: dphi is not assigned in that branch.
* `C78_transposed_refuted` (P_Psfr2.v): see the statement; property: Residual phase structure function reconstructed from the covariance of the mirror modes
* `C79_noise_subtraction_refuted` (P_Psfr3.v): after the subtraction of the noise nothing keeps the covariance a covariance: a quiet recording with an overestimated noise has a negative structure function (its OTF factor exceeds 1).
* `C79_profile_length_refuted` (P_Psfr5.v): a profile whose length is not the number of layers is not refused: the anisoplanatism is silently dropped for every source.
* `C80_aliasing_refuted` (P_Psfr6.v): the total ignores the aliasing error: two systems that differ only by it have the same total wavefront error and the same Strehl ratio.
* `C80_noise_exceeds_refuted` (P_Psfr6.v): a jitter smaller than the noise estimate (for instance none), or a covariance of the residual whose trace is under (1 + noise gain) times that of the noise, has no breakdown: the term and the total are nan.
* `C80_params_refuted` (P_Psfr6.v): several layers but a single reconstructed one: the vector still lists the weights, and the model reads its first entry, w_1 r0^(-5/3), as r0 and the next two as the gains.
* `C81_aniso_refuted` (P_Psfao.v): see the statement; property: The parametric PSF model (PSFAO21) at one wavelength
* `C82_history_refuted` (P_Psfao2.v): see the statement; property: An evaluation of PSFAO21 does not depend on earlier evaluations
* `C83_backgrounds_refuted` (P_Psfao3.v): a parameter vector laid out like the bounds of the model (one background per wavelength, no static mode) is not read back: only the first background is used, and the others are taken for static aberration coefficients.
* `C83_default_several_refuted` (P_Psfao3.v): see the statement; property: PSFAO21 with several wavelengths
* `C83_default_single_refuted` (P_Psfao3.v): see the statement; property: PSFAO21 with several wavelengths
* `C84_first_frequency_refuted` (P_Diag.v): the first frequency is not the resolution fs/nExp, unless fs = nExp.
* `C84_noise_gain_refuted` (P_Diag.v): with a shorter telemetry the grid of frequencies runs backwards and the noise propagation of any loop with a pure gain controller is negative.
* `C84_pi_refuted` (P_Diag.v): the delay and the exposure elements miss a factor pi: a delay of one sample is not the unit delay z^-1 used by the servo, and the sensor does not average out a signal at its own sampling frequency.
* `C85_methods_refuted` (P_Diag2.v): the method 'rtf' always raises, 'interpolation' raises when there are more signals than frames, and a misspelt method silently gives no noise at all.
* `C85_tiptilt_refuted` (P_Diag2.v): with constant commands the tip-tilt noise is reported as zero however noisy the tip-tilt slopes are, and the list has one value whatever the number of sensors.
* `C86_student_refuted` (P_Diag4.v): the coefficient does not decrease with the size of the window: the row of seven samples repeats that of five, and longer windows than ten use it.
* `C86_window_refuted` (P_Diag4.v): when the crossing is closer to lag zero than half the window, the window has negative lags, which read the end of the autocorrelation.
* `C88_circle_refuted` (P_Pupil.v): a circular segment (no sides) can never be built.
* `C88_off_centre_refuted` (P_Pupil.v): the size of the array is computed from the extent of the field, but the segments are placed from its origin: a single segment off the centre is refused.
* `C89_gap_refuted` (P_Pupil2.v): where the gap between segments was filled (the matrix is one outside the polygon), any setting of the reflectivity, even to one, reopens the gap.
* `C89_rotate_refuted` (P_Pupil2.v): rotating (or shrinking) segments always raises, after having removed them.
* `C90_reflectivity_erases_refuted` (P_Pupil4.v): setting the reflectivity of a segment, even to one, erases the phase aberration put on it before.
* `C90_shift_lost_refuted` (P_Pupil3.v): conversely a segment on the last row cannot be moved along x at all: it is removed instead, without an exception.
* `C90_shift_out_refuted` (P_Pupil3.v): the limits of the shift along x are computed from the rows and those along y from the columns. A segment on the last column may be pushed out of the array: the shift raises and the segment is gone.
* `C91_border_refuted` (P_Pupil5.v): the last non-zero row or column is dropped with the border. A pupil that has no zero border, with light on its first row and on its last row, still loses its last row and its last column.
* `C91_pad_positions_refuted` (P_Pupil5.v): padding with flagReplace moves the segments twice: by d pixels with the centre, and by d more through their positions; removing a segment afterwards does not take its pixels.
* `C91_reset_positions_refuted` (P_Pupil5.v): reset does not put the segments back: after a shift and a reset the pupil looks as built, but removing the segment takes the pixels of the displaced place.
* `C91_zero_pad_any_refuted` (P_Pupil7.v): for an array that is not square the zero padding is not centred: on both axes it adds half of the rows' share before and half of the columns' share after.
* `C92_single_refuted` (P_Pupil6.v): a pupil of one segment has no gap, but filling is the default and turns every row between the top of the segment and its middle into a full row, in the pupil and in the caller's reference segment.
* `C93_encircled_refuted` (P_Metric4.v): "The last value of the encircled energy is reached when all the light is enclosed": false. Every curve is scaled to end at 1 BEFORE the outermost ring: a uniform 3x3 image has an encircled energy of 1 at radius 0, where 1/9 of the flux is.
* `C93_inplace_refuted` (P_Metric4.v): "radial_profile does not modify its argument": false with normalize='peak' or 'total': the caller's array is divided in place.
* `C93_small_refuted` (P_Metric4.v): "An image always has a profile": a 1x1 or 2x2 image has a single ring and the call raises IndexError.
* `C93_stddev_refuted` (P_Metric5.v): see the statement; property: Radial profile and encircled energy
* `C93_wedge_refuted` (P_Metric4.v): "The radius returned beside a value is the radius of its ring": false with a position-angle range that does not contain the central pixel: radii are counted from the smallest radius of the WHOLE image. Here the wedge at 90 degrees holds the pixels at distances 1 and 2; the mean at distance 1 is returned beside the radius 0.
* `C94_border_refuted` (P_Metric7.v): "A peak next to the border has a width": false. If the first sample is at or above half maximum, at least two samples are and at least two are not, the call raises ValueError (the three-sample window around the edge is empty); likewise for the last sample.
* `C94_gaussian_rebin_refuted` (P_Metric8.v): "rebin only refines the measurement": with method='gaussian' (or 'moffat') the fitted width, which is in pixels of the RESAMPLED image, is multiplied by the pixel scale without dividing by rebin: the width returned is rebin times that of the cutting convention.
* `C94_round_refuted` (P_Metric8.v): "The contour method measures the contour": for a perfectly round contour (every contour point at the same distance from the peak) the outlier filter removes all the points, and the result is the one of the cutting method.
* `C94_steep_refuted` (P_Metric7.v): "The width is the distance between the half-maximum crossings" fails without the rising/falling hypothesis of [C94_width]: (a) when the first sample above half maximum is the peak itself, the left crossing is interpolated between the sample before and the sample AFTER the peak (width 1 instead of 11/6); (b) a flat-topped symmetric profile is measured differently on its two sides (1.5 instead of 2).
* `C95_convolution_refuted` (P_Metric10.v): see the statement; property: Strehl ratio and diffraction-limited OTF
* `C95_inplace_refuted` (P_Metric10.v): see the statement; property: Strehl ratio and diffraction-limited OTF
* `C95_odd_refuted` (P_Metric10.v): for an image of odd size the pixel read is not the central one. An image whose light is all in its central pixel has a Strehl ratio of zero.
* `C96_quadrant_refuted` (P_Map.v): a stationary covariance which is only symmetric through the origin (as every covariance is) is not: the values of one pair of quadrants are copied to the other.
* `C97_off_axis_refuted` (P_Map2.v): see the statement; property: Focal-angular anisoplanatism maps
* `C98_cube_refuted` (P_Tel2.v): As many modes as pixels across: the same cube of n modes of n x n pixels, stored modes first like any other, is read along the wrong axis.
* `C98_empty_pupil_refuted` (P_Tel.v): Degenerate telescopes are accepted: an obstruction of the whole pupil, or at most 2 x 2 pixels, gives a pupil without light.
* `C98_odd_centre_refuted` (P_Tel.v): see the statement; property: Telescope pupil, non-common path aberrations and static modes
* `C98_orthonormal_refuted` (P_Tel3.v): see the statement; property: Telescope pupil, non-common path aberrations and static modes
* `C98_outside_refuted` (P_Tel3.v): A defocus coefficient leaves an offset outside of the pupil.
* `C98_pupil_rms_refuted` (P_Tel3.v): A coefficient c gives a wavefront error of 2 |c| over the pupil, not |c|.
* `C98_rectangular_refuted` (P_Tel2.v): A pupil file with the right number of rows and another number of columns is kept as it is: the pupil is not square, and Zernike coefficients are then refused.
* `C99_deferred_refuted` (P_Spider2.v): see the statement; property: Spider mask
* `C99_direction_refuted` (P_Spider2.v): Spiders that are not symmetric extend from their origin AWAY from their direction: no pixel in front of the origin, in the half plane of the direction asked for, is dark.
* `C99_keck_refuted` (P_Spider2.v): The example function for the Keck telescope does not work.
* `C100_extra_scales_refuted` (P_Detector.v): More pixel scales than fields are dropped silently, and printing a detector with lists fails.
* `C101_above_refuted` (P_Driver2.v): the layer gets a negative stretching factor.
* `C101_single_layer_refuted` (P_Driver.v): see the statement; property: Atmosphere used by the reconstructor and guide-star stretching
* `C101_wind_pairing_refuted` (P_Driver.v): see the statement; property: Atmosphere used by the reconstructor and guide-star stretching
* `C101_zero_height_refuted` (P_Driver2.v): when sources_LO is present, a guide star of height 0 is handled as a laser star; with fewer reconstructed layers than turbulent layers, the altitude of every modelled layer is then multiplied by 0 - or the factor is not a number, always so with one reconstructed layer - although the layers of the atmosphere are not stretched.
* `C102_fov_refuted` (P_Driver3.v): see the statement; property: Initialisation: side effects, noise wavelength, repeated initialisation
* `C102_noise_refuted` (P_Driver3.v): the r0 handed to the sensor is the correct one multiplied by (wavelength of the atmosphere / 500 nm)^(6/5).
* `C102_several_sensors_refuted` (P_Driver3.v): see the statement; property: Initialisation: side effects, noise wavelength, repeated initialisation
* `C103_ensquared_refuted` (P_Driver4.v): PSF of side nPix, frequency domain of side nOtf = nPix\*k. With oversampling (k >= 2) the request stops with ValueError, unless the peak of the first PSF is at the corner of the image.
* `C104_frames_refuted` (P_Call.v): when the number of backgrounds of a complete vector (one per source wavelength) is neither one nor the number of simulated wavelengths, every complete call fails.
* `C104_nyquist_refuted` (P_Call.v): Nyquist sampling, several wavelengths and a camera without spot width: the PSF cannot be computed (the jitter kernel is read before it is defined).
* `C104_static_stays_refuted` (P_Call.v): with one wavelength the static coefficients of a call stay in force. The Strehl ratios of a later call without parameters are those of the aberrated system, not those reported before by the same call.
* `C105_centre_refuted` (P_Proc.v): so the brightest pixel is NOT brought to the centre (h,h): it lands at (h-1-a, h-1-b), half way, and is central only when it was at (h+1,h+1).
* `C105_dead_pixels_refuted` (P_Proc2.v): whatever the frame (of any width but 4; the documented one is 10), the "corrected" image is the input image, bad pixels included: the call either changes nothing or fails.
* `C105_noise_mean_refuted` (P_Proc.v): over K realisations whose Gaussian draws average to 0 and whose photon draws average to their rate, the noisy images average to TWICE the noise-free one.
* `C106_psd_negative_refuted` (P_Psf2.v): ... is NOT always positive: with no residual phase at all, every even grid of at least 4 pixels gives a negative pixel two columns from the centre.
* `C106_undersampled_refuted` (P_Psf2.v): below an oversampling of 2 the PSF of a pupil is aliased: at oversampling 1 a fully open even pupil without phase gives a negative pixel.
* `C107_tie_refuted` (P_Gen.v): one sub-folder is always refused, and so is a number of files whose only suitable divisor is 2n-1, which is as close to n as 1: 21 files for 2 sub-folders are refused although 3 sub-folders of 7 files would do.
* `C108_rounding_refuted` (P_Gen2.v): see the statement; property: Parameter values of a generated data base
* `C109_r0_refuted` (P_Gen2.v): finding: with r0 as main parameter (the default), the value of r0, though written in the name of the file and of its folder, has no effect on the image.
* `C110_far_record_refuted` (P_Mass.v): see the statement; property: Seeing-monitor tables
* `C110_midnight_refuted` (P_Mass.v): see the statement; property: Seeing-monitor tables
* `C110_month_end_refuted` (P_Mass.v): finding: in the afternoon and evening of the last day of a month the day overflows: the stamp is no date at all.
* `C111_triple_refuted` (P_Keck.v): finding: a wavelength given three times is still there twice
* `C112_no_mask_refuted` (P_Zonal.v): without a mask the arrays of positions are two-dimensional and only the row of each point is used: the covariances of all actuators beyond the n first ones (n: actuators across) have no effect on the OTF.
* `C113_open_loop_refuted` (P_Zonal2.v): np.roll(u,(-2,2)) without an axis adds the two shifts: the first term is not shifted at all, the second one by one frame backwards (cyclically): the slopes are s_t + MI (dt u_t + (1-dt) u_{t-1}).
* `C114_screening_refuted` (P_Sphere.v): The English claim (line 36, "move the data with corrupted PSF; corruption is tracked by bad centering of the PSF") is false: whatever the images, only the folders without a SPARTA file are moved.
* `C114_window_refuted` (P_Sphere.v): Line 571 ([1.5] without return): a window of 1.5 pixels is never used, stars of magnitude 10 to 10.5 get 1 pixel; and the fainter star of magnitude 10.5 gets three times the gain of one of magnitude 10.4.
* `C115_lwe_zero_refuted` (P_Sphere2.v): A row without coefficients gives -1; without tip-tilt removal it makes the call fail instead.
* `C116_small_frame_refuted` (P_Sphere4.v): Frames smaller than the window are not always refused: when the frame has one pixel less than the window and its star is in the centre, the negative bound wraps around, a single pixel (the last corner) is selected and repeated over the whole window.
* `C117_fwhmy_refuted` (P_Sphere3.v): The width of the fitted PSF along y never reaches the data base: the column FWHMY FIT repeats the width along x.
* `C117_no_strehl_refuted` (P_Sphere3.v): Asking for static modes without a Strehl ratio (whose default is None, a documented value) fails.
* `C118_even_refuted` (P_Interp.v): see the statement; property: Resampling of images and transfer functions
* `C118_nearest_centre_refuted` (P_Interp.v): The centre is not kept: halving an image moves the next pixel to the centre.
* `C119_angle_refuted` (P_Pupil8.v): Rotations accumulate but only the last angle is recorded: with a rotation operator that adds angles, turning by a then by b leaves a pupil turned by a+b that reports b.
* `C119_negative_refuted` (P_Pupil8.v): Negative indices are not refused: i stands for the petal n+i, counted from the last one; below -n the call fails.
* `C119_reset_refuted` (P_Pupil8.v): With flagReplace the reference pupil keeps its former size: resetting a resized pupil with a central obscuration fails.
* `C119_resize_back_refuted` (P_Pupil8.v): Without flagReplace (the default) the size cannot be restored: the recorded number of pixels is still the first one, so asking for it does nothing.
* `C119_twice_refuted` (P_Pupil8.v): The phases of successive calls do not add up: the recorded phase is not updated, so a second call erases the first.
* `C120_few_actuators_refuted` (P_AoWfe.v): Mirrors with few actuators have no servo-lag error at all: up to 2 x 2 actuators, and up to 12 with a tip-tilt loop.
* `C120_second_order_refuted` (P_AoWfe.v): Splitting off a tip-tilt loop of the same bandwidth loses the second radial order (focus and astigmatisms): the servo-lag variances of the two loops do not add up to that of the single loop.
* `C121_last_line_refuted` (P_Deep.v): The last line of the file is never read: replacing it by anything (even by words) changes nothing, so the last sample of a set is silently dropped.
* `C121_last_mode_refuted` (P_Deep.v): With static modes, the last one is dropped before the PSF is computed: two estimates that differ only by it give the same PSF.
* `C121_mean_bias_refuted` (P_Deep.v): The column named "mean bias" is not a mean error: a network that misses one value out of three by 25 percent, the others being right, has a mean bias of zero.
* `C121_repeat_refuted` (P_Deep.v): A line with one number after the truth is accepted: this number is taken as the estimate of every parameter.
* `C122_last_rank_refuted` (P_Deep2.v): In general the largest value of each row is never compared to anything when there are nInter^2 folders: moving it up changes nothing.
* `C122_out_of_range_refuted` (P_Deep2.v): The largest value of r0, out of all intervals ([1, 2] and [2, 3]), and the different distributions of the second parameter are not seen: the base is accepted.
* `C122_single_refuted` (P_Deep2.v): A data base with a single value of r0 (or of A) cannot be verified: IndexError.
* `C123_one_plane_refuted` (P_Tight.v): Only one plane is computed, whatever the number of sources: the second source has no spectrum (its PSF, its width and its Strehl ratio cannot be read).
* `C124_integer_delay_refuted` (P_Diag6.v): "the open-loop commands are the commands and the residual wavefront, interpolated at the delay": for a delay of a whole number of frames both weights are 1 and the residual is counted twice.
* `C124_one_diameter_refuted` (P_Diag6.v): "a single diameter may be given": comparing with a missing one is refused (TypeError)
* `C124_roll_refuted` (P_Diag6.v): "the shift is in time": np.roll with a tuple and no axis shifts the flattened array; for a delay under one frame the residual of the next actuator, of the same frame, is mixed into each actuator (the next frame is never read).
* `C124_tiptilt_refuted` (P_Diag6.v): "without laser guide stars the tip-tilt covariance comes from the Zernike covariance": it is a 1 x 1 matrix, the variance of the first reconstructed mode (number 4, the focus, by default).
* `C125_default_limits_refuted` (P_Calib.v): with the default limits of magnitude (None) the calibration is always refused.
* `C125_one_missing_refuted` (P_Calib.v): Finding (several stars per segment): one star not fitted, sharing its normalisation with a fitted one, makes every interpolated PSF undefined: the fitted one gets a null weight, so that it seems to be on every target.
* `C125_points_refuted` (P_Calib.v): for other sizes they drift from the centres: an image of 6 pixels in 2 segments of 3 has its centres at -2 and 1, the targets are -2 and 2.
* `C125_too_few_refuted` (P_Calib.v): Finding (one star per segment): when fewer stars than the number of neighbours (4) were fitted, and one was not, no value is finite.
* `C126_skip_many_refuted` (P_Calib2.v): see the statement; property: Catalogues of stars are read exactly
* `C126_skip_zero_refuted` (P_Calib2.v): nSkip other than 1 never gives the table: no line to skip is refused; with s >= 2 lines to skip the number of values read does not fit the table; refused, unless a single value is read, which is then repeated.
* `C127_aliasing_refuted` (P_Model6.v): the aliasing spectrum of such a system is larger at -k than at k for every frequency k on the positive half of the axis between 1/D and 1/(2d), that is in the corrected area: the fold orders run from -n to n-1, so the turbulence at k - n/d has no counterpart. The Bessel function of the piston filter is only supposed to be bounded by one. (Frequency exactly on the axis: the arrays without their offset of 1e-10; C127_aliasing_orders below is exact for every offset.)
* `C130_missing_refuted` (P_Sparta.v): a table with the frame rate but without the flux makes the reading fail, and an observation without the SPARTA file can never be read (the values to return do not exist).
* `C130_order_refuted` (P_Sparta.v): in a table in order of decreasing time the window is empty and the photon number is nan although three samples lie in the exposure.
* `C131_columns_refuted` (P_PsfrRun2.v): the table gives, under "TT NPH" and "TT WFE", the flux and the error of the high-order sensor and not those of the tip-tilt one, and the columns "WFE FOCAL ANISO" and "WFE TT ANISO" are exchanged.
* `C131_tau0_unit_refuted` (P_PsfrRun2.v): the coherence times of the table are not in the same unit: of the same r0 and wind speed, TRUE TAU0 is a million times TAU0 (systemDiagnosis.py:367 in seconds; atmosphere.py:83-85 in milliseconds, then times 1000).
* `C131_true_column_refuted` (P_PsfrRun2.v): without true_r0 the columns TRUE R0 and TRUE L0 hold the estimates, whatever the simulation.
* `C132_crop_edge_refuted` (P_Telemetry2.v): a star closer than half the field to the lower borders leaves an empty image (the negative index counts from the other side), near the upper borders a smaller one.
* `C132_decimated_mean_refuted` (P_Telemetry.v): the means are removed before the decimation: the decimated residual wavefront may have a mean. (The rate of the loop, computed from all the time stamps, is not divided by the decimation either: C132_rate.)
* `C132_influence_refuted` (P_Telemetry2.v): the influence functions cannot be computed for any mirror: the number of actuators is stored as a float and is refused by np.linspace; a mirror built with a resolution fails, and so does any telemetry object given a telemetry file.
* `C134_binned_refuted` (P_Psf3.v): with a binning factor of 2 the image is symmetric neither about the pixel fov/2 nor about the middle of the array: the binned pixels are not centred on the optical axis.
* `C134_static_tilt_refuted` (P_Psf3.v): a static tilt moves the diffraction pattern of the telescope by one pixel, but the image made from the instrumental OTF of that same tilt is symmetric - half of its light is put on the wrong side (the real part of the OTF is taken, FourierUtils.py:101).
* `C137_all_files_refuted` (P_KeckFit.v): "all" the PSFs of the directory are fitted by default. The images are drawn at random with replacement: for some draws the outcome does not depend on the second file of the directory at all.
* `C140_blur_width_refuted` (P_Blur.v): the width obtained is larger than the requested one

Further observations made while reading, not stated as theorems (outside the model, or about floating point):

* `aoSystem.raiseNotSameLength` formats its message from the wrong arguments when it is given two option names or more.
* `FourierUtils.createDeadPixFrame` calls `np.zeros(n,10,2)`: TypeError for every argument.
* `psfrUtils.mkotf_indpts` and `zonalCovarianceToOtf` use `np.object`, removed from NumPy 1.24.
* `vltSpiderMask` passes `spidersInitCoor` by position and by keyword and an unknown keyword `unit`: TypeError at the call.
* `deformableMirror.setInfluenceFunction` hands a float number of samples to `np.linspace`: TypeError.
* `|exp(i phi)|` may differ from 1 by rounding, so `removeSegment` may miss pixels: invisible in exact reals.
* `configFile` keeps the wavelength of a previous file when the section already exists.
* The low-order cropping factor `int(n/(n/m))` differs from `m` in binary64 for (9,7), (18,14), (30,29): this one *is* proved
  (C41), with Flocq's binary64.

## 5. What is modelled and what is not

Modelled (each definition of the `M_*.v` files cites its lines): `aoSystem/FourierUtils.py` (Fourier chain, PSF assembly 3-D
and 4-D, parameter sorting, image helpers, metrics, layers, maps), `aoSystem/fourierModel.py` (all the PSDs, reconstructors,
controller, tomography, driver, PSF call, metrics, memory estimate), `aoSystem/frequencyDomain.py`, `aoSystem/atmosphere.py`,
`aoSystem/source.py`, `aoSystem/sensor.py`, `aoSystem/detector.py`, `aoSystem/deformableMirror.py`, `aoSystem/rtc.py`,
`aoSystem/telescope.py`, `aoSystem/zernike.py`, `aoSystem/segment.py`, `aoSystem/pupil.py`, `aoSystem/spiders.py`,
`aoSystem/airRefraction.py`, `aoSystem/anisoplanatismModel.py`, `aoSystem/aoSystem.py` (configuration, field of view, modes,
error breakdown), `psfFitting/*` (fit driver, image model, confidence, grids, automatic fit of a directory of Keck images), `psfao21/psfao21.py`, `psfr/psfR.py`,
`psfr/psfrUtils.py` (zonal OTF, slope spectra), `telemetry/systemDiagnosis.py`, `telemetry/massdimm.py`, `telemetry/keckUtils.py`, `telemetry/telemetryKeck.py` and
`telemetry/telemetryKASP.py` (processing of the recorded series),
`telemetry/sphereUtils.py` (screening, tables, tip-tilt filter, sorting, recentring, row of the data base, SPARTA and header
readers), `psfr/psfrRun.py` (files, table, merge, simulations), `deepLoop/dataGenerator.py`, `deepLoop/deepLoopPerformance.py`.

`M_Chain.v` composes the stage models into the whole computation of `fourierModel(path, ao=system)` (AO system object to
PSD, structure function and images; scope: one natural guide star, closed loop, no laser guide star, options
`normalizePSD`, `TiltFilter`, `getPSDatNGSpositions`, `nyquistSampling` off; the telescope OTFs are arguments). `M_Chain2.v` reads the attributes of that object from the system built by `M_Config.v`, so that `simulate` goes from the parameter file to the images; a list of pixel scales is refused and a modulation of None is read as 0 there.

Not modelled: plotting and printing, FITS input/output and file names, GPU dispatch (CuPy is taken as NumPy), float rounding
(except where Flocq is used, C41), the optimisers of SciPy (`least_squares`, `curve_fit` are arguments of the model or
abstract results), the readers of telemetry files and downloads, the wall-clock, and random number generators (the draws are arguments).
