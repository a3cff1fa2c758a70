{
 "claims": [
  {
   "property": "C01",
   "status": "proved",
   "theorems": [
    "C01_elm2ind_bijection",
    "C01_ind2elm_left_inverse",
    "C01_ind2elm_right_inverse"
   ],
   "note": "ind2elm uses the exact integer square root (simplification stated in the model)."
  },
  {
   "property": "C02",
   "status": "proved",
   "theorems": [
    "C02_1d_to_2d_places_coefficients",
    "C02_roundtrip_1d_2d_1d",
    "C02_roundtrip_2d_1d_2d",
    "C02_dimension_errors"
   ],
   "note": "Any entry type."
  },
  {
   "property": "C03",
   "status": "proved",
   "theorems": [
    "C03_1d_to_2d_fast",
    "C03_2d_to_1d_fast",
    "C03_hp_to_2d_fast",
    "C03_2d_to_hp_fast"
   ],
   "note": "Any entry type."
  },
  {
   "property": "C04",
   "status": "proved",
   "theorems": [
    "C04_hp_getidx_bijection",
    "C04_hp_layout",
    "C04_hp_to_2d",
    "C04_2d_to_hp",
    "C04_roundtrip_hp",
    "C04_roundtrip_2d",
    "C04_lm2lm_hp",
    "C04_2d_to_hp_dimension_check_refuted"
   ],
   "note": "Includes a refuted claim: the dimension check of flm_2d_to_hp never fires."
  },
  {
   "property": "C05",
   "status": "proved",
   "theorems": [
    "C05_elmn2ind_bijection",
    "C05_1d_to_3d",
    "C05_roundtrip_1d",
    "C05_roundtrip_3d"
   ],
   "note": "Any entry type."
  },
  {
   "property": "C06",
   "status": "proved",
   "theorems": [
    "C06_equiangular_shapes",
    "C06_healpix_shapes",
    "C06_extension",
    "C06_so3_shapes",
    "C06_unsupported_names_raise",
    "C06_every_name_is_covered",
    "C06_so3_case_refuted"
   ],
   "note": "Shape functions for every name; the so3 f_shape case-sensitivity is recorded as C06_so3_case_refuted."
  },
  {
   "property": "C07",
   "status": "proved",
   "theorems": [
    "C07_ring_lengths",
    "C07_ring_symmetry",
    "C07_rings_partition_pixels"
   ],
   "note": ""
  },
  {
   "property": "C08",
   "status": "proved",
   "theorems": [
    "C08_colatitudes",
    "C08_poles",
    "C08_symmetry",
    "C08_gauss_legendre",
    "C08_t2theta_gl_refuted"
   ],
   "note": "Colatitudes of mw, mwss, dh, healpix equal the published ones, increasing, in [0,pi]; poles and symmetry. Gauss-Legendre relative to increasing nodes in (-1,1). Finding: t2theta rejects the documented sampling gl (C08_t2theta_gl_refuted)."
  },
  {
   "property": "C09",
   "status": "proved",
   "theorems": [
    "C09_longitudes",
    "C09_phase_shifts",
    "C09_shifts_cancel",
    "C09_equiangular"
   ],
   "note": "All three phase-shift tables and the longitudes of healpix and equiangular rings."
  },
  {
   "property": "C10",
   "status": "proved",
   "theorems": [
    "C10_range",
    "C10_pixel_centres",
    "C10_wrap_refuted"
   ],
   "note": "Range for every theta and 0<=phi<2pi; every pixel centre. Finding: longitudes just below 2pi on half of the equatorial rings land in the next ring (C10_wrap_refuted)."
  },
  {
   "property": "C11",
   "status": "proved",
   "theorems": [
    "C11_ring_synthesis",
    "C11_ring_synthesis_real",
    "C11_rejects"
   ],
   "note": "FFT primitives are their defining sums over C (exact arithmetic); both methods, with and without the real-signal option."
  },
  {
   "property": "C12",
   "status": "proved",
   "theorems": [
    "C12_ring_analysis",
    "C12_ring_analysis_real",
    "C12_rejects",
    "C12_jax_nside1_refuted"
   ],
   "note": "As C11. Finding: the JAX route raises at nside=1 (C12_jax_nside1_refuted)."
  },
  {
   "property": "C13",
   "status": "proved",
   "theorems": [
    "C13_numpy_mutates_refuted",
    "C13_numpy_effect",
    "C13_numpy_unchanged",
    "C13_jax_unchanged"
   ],
   "note": "The unconditional claim is false for NumPy (C13_numpy_mutates_refuted); the exact in-place effect and the condition under which the call is pure are proved."
  },
  {
   "property": "C14",
   "status": "proved",
   "theorems": [
    "C14_ring_geometry",
    "C14_no_overflow",
    "C14_folding_kernel",
    "C14_extension_kernel",
    "C14_shift_callbacks",
    "C14_forward_transform",
    "C14_inverse_transform",
    "C14_inverse_normalised",
    "C14_forward_normalised"
   ],
   "note": "Kernels under every thread interleaving, any entry type; cuFFT is an arbitrary length-preserving function of the ring entries. The ring FFT is assumed complex (the device code ignores reality)."
  },
  {
   "property": "C15",
   "status": "proved",
   "theorems": [
    "C15_cache_returns_the_right_plans",
    "C15_transforms_create_no_plans",
    "C15_rebuild_leaks_plans_refuted"
   ],
   "note": "Plan behaviour proved for every history; 'no further plans' holds for transform calls and is refuted for repeated builds (C15_rebuild_leaks_plans_refuted)."
  },
  {
   "property": "C16",
   "status": "proved",
   "theorems": [
    "C16_mw_to_mwss",
    "C16_harmonics_are_band_limited"
   ],
   "note": "Exact arithmetic, NumPy and JAX versions; one batch item."
  },
  {
   "property": "C17",
   "status": "proved",
   "theorems": [
    "C17_upsample",
    "C17_downsample_upsample",
    "C17_downsample_half_domain_refuted"
   ],
   "note": "Includes a refuted claim: downsampling on [0,pi] drops the south-pole ring."
  },
  {
   "property": "C18",
   "status": "proved",
   "theorems": [
    "C18_extension_mw",
    "C18_extension_mwss",
    "C18_extension_signal",
    "C18_unextend",
    "C18_spatial",
    "C18_versions_agree",
    "C18_case_refuted"
   ],
   "note": "Includes a refuted claim: the sampling name is compared case-sensitively."
  },
  {
   "property": "C19",
   "status": "proved",
   "theorems": [
    "C19_mw",
    "C19_mwss",
    "C19_transform_mwss",
    "C19_dh",
    "C19_gl",
    "C19_total_weight",
    "C19_total_weight_healpix",
    "C19_transform_rejects"
   ],
   "note": "mw, mwss (any spin, matching parity, degree < L), the transform weights of mwss and dh (degree < 2L), gl relative to exact Gauss-Legendre nodes and weights, total weight 4 pi for all schemes including healpix."
  },
  {
   "property": "C20",
   "status": "proved",
   "theorems": [
    "C20_conjugated_fft",
    "C20_resampling"
   ],
   "note": "FFT identity plus equality of the NumPy and JAX resampling functions for arbitrary arrays."
  },
  {
   "property": "C21",
   "status": "proved",
   "theorems": [
    "C21_agree",
    "C21_case_refuted",
    "C21_reality_refuted"
   ],
   "note": "Reference methods, exact arithmetic. Angles: no ring nearer to a pole than the np.isclose tolerance, proved for L <= 20000 (mw, mwss, dh), nside <= 15000 and gl nodes |x| <= 1-1e-9. Findings: C21_case_refuted, C21_reality_refuted."
  },
  {
   "property": "C22",
   "status": "proved",
   "theorems": [
    "C22_agree",
    "C22_reality_refuted"
   ],
   "note": "Reference methods, exact arithmetic. Angles: no ring nearer to a pole than the np.isclose tolerance, proved for L <= 20000 (mw, mwss, dh), nside <= 15000 and gl nodes |x| <= 1-1e-9. Finding: C22_reality_refuted."
  },
  {
   "property": "C23",
   "status": "proved",
   "theorems": [
    "C23_synthesis",
    "C23_rings",
    "C23_default"
   ],
   "note": "Exact arithmetic, spherical harmonics from Wigner's explicit sum. Angles: no ring nearer to a pole than the np.isclose tolerance, proved for L <= 20000 (mw, mwss, dh), nside <= 15000 and gl nodes |x| <= 1-1e-9."
  },
  {
   "property": "C24",
   "status": "proved",
   "theorems": [
    "C24_mw_round_trip",
    "C24_identity",
    "C24_analysis"
   ],
   "note": "All combinations of the four inverse and four forward methods. Angles: no ring nearer to a pole than the np.isclose tolerance, proved for L <= 20000 (mw, mwss, dh), nside <= 15000 and gl nodes |x| <= 1-1e-9."
  },
  {
   "property": "C25",
   "status": "proved",
   "theorems": [
    "C25_dh_round_trip"
   ],
   "note": "As C24."
  },
  {
   "property": "C26",
   "status": "proved",
   "theorems": [
    "C26_gl_round_trip"
   ],
   "note": "Relative to nodes and weights with the Gauss-Legendre property; such rules exist for every L and are unique (C58), and the weights of the code are near them."
  },
  {
   "property": "C27",
   "status": "proved",
   "theorems": [
    "C27_risbo",
    "C27_risbo_step",
    "C27_risbo_orthogonal",
    "C27_risbo_vectorised",
    "C27_risbo_jax",
    "C27_rejects"
   ],
   "note": "Exact real arithmetic; numpy, vectorised and JAX variants against Wigner's explicit sum, plus orthogonality and exact set of rejected arguments."
  },
  {
   "property": "C28",
   "status": "proved",
   "theorems": [
    "C28_slice",
    "C28_full",
    "C28_agrees_with_risbo",
    "C28_rejects",
    "C28_rejects_negative_refuted",
    "C28_near_pole_refuted",
    "C28_docstring_index_refuted"
   ],
   "note": "Slices and full matrix, whatever rescaling happens. Angles between a pole and the np.isclose tolerance are excluded and the claim is refuted there (C28_near_pole_refuted); mm < -el is not rejected (C28_rejects_negative_refuted)."
  },
  {
   "property": "C29",
   "status": "proved",
   "theorems": [
    "C29_step",
    "C29_run",
    "C29_implementations_agree",
    "C29_last_row_suffices",
    "C29_quarter",
    "C29_eighth",
    "C29_rejects",
    "C29_case_refuted",
    "C29_rejects_degree"
   ],
   "note": "Loop, vectorised and JAX implementations over the reals, from any starting array; the eighth and quarter planes too. Finding: the names jax/vectorized are compared case-sensitively while loop is not (C29_case_refuted). In the JAX variant out-of-range degrees (clamped indices) are not modelled; floating-point stability is not modelled."
  },
  {
   "property": "C30",
   "status": "proved",
   "theorems": [
    "C30_wigner_inverse",
    "C30_wigner_forward",
    "C30_otf_wigner_inverse",
    "C30_otf_wigner_forward",
    "C30_precomputed_wigner_inverse",
    "C30_precomputed_wigner_forward",
    "C30_precomputed_inverse",
    "C30_precomputed_forward",
    "C30_otf_inverse",
    "C30_otf_forward",
    "C30_inverse",
    "C30_forward"
   ],
   "note": "Reference, on-the-fly and precomputed transforms, on the sphere and on SO(3). With the reality flag, over R; the reference and precomputed sphere transforms then ask for (coefficients or maps of) real signals."
  },
  {
   "property": "C31",
   "status": "proved",
   "theorems": [
    "C31_otf_flag_real",
    "C31_otf_spin_refuted",
    "C31_otf_spin_forward_refuted",
    "C31_otf_inverse",
    "C31_otf_forward",
    "C31_inverse",
    "C31_forward"
   ],
   "note": "Reference and on-the-fly transforms (numpy, JAX, torch); the precomputed transforms agree with the reference ones (C36). Finding: the on-the-fly transforms keep the flag with a spin and return a real map / symmetric coefficients (C31_otf_spin_refuted, C31_otf_spin_forward_refuted)."
  },
  {
   "property": "C32",
   "status": "proved",
   "theorems": [
    "C32_otf_inverse",
    "C32_otf_forward",
    "C32_otf_pole_refuted",
    "C32_inverse",
    "C32_forward"
   ],
   "note": "Reference and on-the-fly transforms; the precomputed transforms agree with the reference ones (C36). C32_otf_pole_refuted: the polar rings of the on-the-fly inverse transforms take in degrees below |spin| unless these hold zeros."
  },
  {
   "property": "C33",
   "status": "proved",
   "theorems": [
    "C33_otf_method",
    "C33_otf_spin",
    "C33_otf_backend",
    "C33_ssht_iter_refuted",
    "C33_otf_wigner_method",
    "C33_otf_wigner_spin",
    "C33_otf_wigner_ssht",
    "C33_inverse_shape",
    "C33_forward_shape",
    "C33_inverse_method",
    "C33_forward_method"
   ],
   "note": "Reference transforms, the dispatch of s2fft.inverse/forward and of s2fft.wigner.inverse/forward. C33_ssht_iter_refuted: refinement with jax_ssht raises KeyError."
  },
  {
   "property": "C34",
   "status": "proved",
   "theorems": [
    "C34_synthesis",
    "C34_analysis",
    "C34_round_trip",
    "C34_identity",
    "C34_mask",
    "C34_rejects"
   ],
   "note": "base_transforms/wigner.py, exact arithmetic, mw, mwss, dh and gl; every L, N, L_lower and both reality settings; no bound N <= L is needed."
  },
  {
   "property": "C35",
   "status": "proved",
   "theorems": [
    "C35_otf_inverse",
    "C35_otf_forward",
    "C35_generated",
    "C35_forward",
    "C35_inverse"
   ],
   "note": "Base wigner transforms, the generated signals and transforms/wigner.py (numpy, JAX, torch)."
  },
  {
   "property": "C36",
   "status": "proved",
   "theorems": [
    "C36_pm_kernel",
    "C36_pm_inverse",
    "C36_pm_inverse_agrees",
    "C36_pm_forward_agrees",
    "C36_pm_roundtrip",
    "C36_kernel",
    "C36_inverse",
    "C36_inverse_agrees",
    "C36_forward_agrees",
    "C36_roundtrip",
    "C36_rejects",
    "C36_spin_wrap_refuted",
    "C36_jax_nside1_refuted"
   ],
   "note": "Kernels of both back ends with the Risbo recursion, of NumPy with the Turok recursion (its 'auto' for |spin| <= 6) and of JAX with the Price-McEwen recursion (its 'auto' for |spin| <= 6; C36_pm_*); all five schemes, reality flag, own or handed-over kernel. The Price-McEwen recursion divides by sines and slice entries, so C36_pm_* speak of regular angles near the colatitudes and of agreement up to eps, as C46 and C47 do; such angles exist (C46_angles). Torch is modelled as the JAX call it makes; iterative refinement is C37. Spins >= L are refuted (C36_spin_wrap_refuted), as is the JAX route at nside = 1."
  },
  {
   "property": "C37",
   "status": "proved",
   "theorems": [
    "C37_expansion",
    "C37_kernel",
    "C37_inverse",
    "C37_forward",
    "C37_round_trip",
    "C37_agrees",
    "C37_agrees_forward",
    "C37_rejects",
    "C37_round_trip_refuted"
   ],
   "note": "fourier_wigner.py and fourier_wigner_kernel, numpy and JAX, precomputed and on-the-fly matrices, mw and mwss, 1 <= N <= L, both reality settings. Inverse = synthesis, forward = analysis, round trip, agreement with the reference transforms. Finding: C37_round_trip_refuted, the forward transform raises for mwss with L = 1."
  },
  {
   "property": "C38",
   "status": "proved",
   "theorems": [
    "C38_otf_error",
    "C38_otf_reference",
    "C38_otf_recover",
    "C38_zero",
    "C38_sum",
    "C38_residual",
    "C38_error",
    "C38_fixed",
    "C38_geometric",
    "C38_limit",
    "C38_spherical_linear",
    "C38_spherical_error",
    "C38_spherical_exact"
   ],
   "note": "For any real-linear forward and backward functions on spaces of arrays; instantiated with the reference spherical transforms (all schemes), where refinement is also shown to keep exact coefficients. The in-place update is modelled by value. Also instantiated with the on-the-fly transforms; the refined on-the-fly transform tends to the refined reference transform as the angles tend to the colatitudes, and recovers the coefficients on the exact schemes."
  },
  {
   "property": "C39",
   "status": "proved",
   "theorems": [
    "C39_indices",
    "C39_flm",
    "C39_flm_admissible",
    "C39_flm_independent",
    "C39_rejects",
    "C39_flmn",
    "C39_flmn_zero",
    "C39_flmn_independent",
    "C39_rejects_flmn",
    "C39_round_trip",
    "C39_wigner_round_trip"
   ],
   "note": "generate_flm, generate_flmn and complex_el_and_m_indices for every stream of draws: each entry is given by its draws, zero outside the admissible range, symmetric with reality, different entries use different draws, rejection of limits above L (for generate_flmn with reality=False only), and the generated signals survive the reference round trips."
  },
  {
   "property": "C40",
   "status": "proved",
   "theorems": [
    "C40_entries",
    "C40_precomputed",
    "C40_signal",
    "C40_power",
    "C40_compose",
    "C40_identity",
    "C40_inverse"
   ],
   "note": "Also proved: the rotated coefficients are those of the rotated signal, and composition of general rotations. JAX index clamping for arrays of other shapes is not modelled."
  },
  {
   "property": "C41",
   "status": "proved",
   "theorems": [
    "C41_inverse_step",
    "C41_inverse_step_jax",
    "C41_inverse_agree",
    "C41_forward_step",
    "C41_forward_step_jax",
    "C41_regular_dense",
    "C41_inverse_step_near",
    "C41_forward_step_near",
    "C41_lower_refuted",
    "C41_one_refuted"
   ],
   "note": "Both steps (numpy and JAX, with their generators of recursion coefficients) in exact arithmetic with infinities and NaN, for any theta function, at regular angles: those at which no entry the recursion divides by vanishes. Regular angles are dense (C41_regular_dense), and near arbitrary angles the result is near the sums there. L_lower <= L-2 and L >= 2; C41_lower_refuted and C41_one_refuted show that L_lower = L-1 and L = 1 fail. Names mwss/healpix must be lower case; coefficients below |spin| must be zero. spmd is not modelled."
  },
  {
   "property": "C42",
   "status": "proved",
   "theorems": [
    "C42_tensor_to_array",
    "C42_array_to_tensor",
    "C42_array_round_trip",
    "C42_tree_to_jax",
    "C42_tree_to_torch",
    "C42_wrapped",
    "C42_default_names",
    "C42_call_style",
    "C42_rejects_call",
    "C42_rejects_name",
    "C42_rejects_torch",
    "C42_backward",
    "C42_backward_linear",
    "C42_namespace",
    "C42_unconverted_refuted",
    "C42_tuple_output_refuted"
   ],
   "note": "Tensors are strided views with offset, lazy conjugation bit and gradient flag; pytrees of lists, tuples, dicts, None. Conversion of arrays and nested arguments, argument binding with positions/keywords/defaults, forward call, backward pass (chain rule for any Jacobian, conjugate transpose for linear functions). Findings: tensors for non-differentiable parameters are passed unconverted; backward of a function returning a tuple raises. Dtypes/devices, DLPack zero-copy aliasing, jax.vjp's autodiff itself and docstring/annotation rewriting are not modelled."
  },
  {
   "property": "C43",
   "status": "proved",
   "theorems": [
    "C43_codes_32_bit",
    "C43_success_codes",
    "C43_exclusive",
    "C43_lp64_refuted"
   ],
   "note": "Holds for a 32-bit long; refuted for LP64, the platform the extension is built for."
  },
  {
   "property": "C44",
   "status": "proved",
   "theorems": [
    "C44_parseval"
   ],
   "note": "dh and gl."
  },
  {
   "property": "C45",
   "status": "proved",
   "theorems": [
    "C45_transpose"
   ],
   "note": "At regular angles; with reality only for spin 0. jax.custom_vjp itself is not modelled."
  },
  {
   "property": "C46",
   "status": "proved",
   "theorems": [
    "C46_synthesis",
    "C46_near",
    "C46_reference",
    "C46_agree",
    "C46_angles"
   ],
   "note": "Angles are those of an arbitrary angle function, required to be regular (C41); C46_angles: such angles exist within any distance of the colatitudes. L >= 2 and L_lower <= L-2 (see C41_one_refuted, C41_lower_refuted); names in lower case; coefficients below |spin| zero (see C32_otf_pole_refuted); with reality spin 0; L >= 2 nside on HEALPix."
  },
  {
   "property": "C47",
   "status": "proved",
   "theorems": [
    "C47_sum",
    "C47_recover",
    "C47_reference",
    "C47_agree",
    "C47_nside1_refuted"
   ],
   "note": "As C46; iter <= 0 (refinement: C38_otf_error). C47_nside1_refuted: the JAX transform raises for nside = 1."
  },
  {
   "property": "C48",
   "status": "proved",
   "theorems": [
    "C48_round_trip"
   ],
   "note": "As C46 and C47."
  },
  {
   "property": "C49",
   "status": "proved",
   "theorems": [
    "C49_synthesis",
    "C49_near",
    "C49_reference",
    "C49_agree",
    "C49_mask",
    "C49_angles"
   ],
   "note": "Regular angles for every spin -N<n<N (C49_angles: such angles exist within any distance of the colatitudes); N <= L and N < 8; coefficients with el < |n| zero; with reality the (0,el,0) coefficients real and, except for numpy, the plane n=0 symmetric (JAX reads its negative orders); precomputes generated with the same reality flag."
  },
  {
   "property": "C50",
   "status": "proved",
   "theorems": [
    "C50_sum",
    "C50_recover",
    "C50_reference",
    "C50_agree",
    "C50_mask"
   ],
   "note": "As C49; nside >= 2 for JAX on HEALPix."
  },
  {
   "property": "C51",
   "status": "proved",
   "theorems": [
    "C51_round_trip"
   ],
   "note": "As C49 and C50."
  },
  {
   "property": "C52",
   "status": "proved",
   "theorems": [
    "C52_inverse_kernel",
    "C52_forward_kernel",
    "C52_rejects",
    "C52_one_refuted"
   ],
   "note": "C52_one_refuted: the default mode raises OverflowError for L = 1 on mw, mwss and dh."
  },
  {
   "property": "C53",
   "status": "proved",
   "theorems": [
    "C53_synthesis",
    "C53_real",
    "C53_agrees",
    "C53_independent",
    "C53_rejects",
    "C53_case_refuted"
   ],
   "note": "With the reality flag the plane n = 0 used is the symmetric part of the given one (as numpy's irfft does). C53_case_refuted: the name MWSS fails."
  },
  {
   "property": "C54",
   "status": "proved",
   "theorems": [
    "C54_sum",
    "C54_agrees",
    "C54_recover",
    "C54_round_trip",
    "C54_independent",
    "C54_hermitian",
    "C54_one_plane_refuted"
   ],
   "note": "C54_one_plane_refuted: N = 1 on mw and mwss fails with IndexError."
  },
  {
   "property": "C55",
   "status": "proved",
   "theorems": [
    "C55_synthesis",
    "C55_independent",
    "C55_assembles",
    "C55_rejects",
    "C55_spin_refuted"
   ],
   "note": "C55_spin_refuted: a spin >= L is accepted and the column index wraps around."
  },
  {
   "property": "C56",
   "status": "proved",
   "theorems": [
    "C56_recover",
    "C56_round_trip",
    "C56_independent",
    "C56_rejects",
    "C56_one_refuted"
   ],
   "note": "C56_one_refuted: mwss with L = 1 fails with ValueError in the forward direction only."
  },
  {
   "property": "C57",
   "status": "proved",
   "theorems": [
    "C57_recover",
    "C57_agrees",
    "C57_limit_refuted"
   ],
   "note": "C57_limit_refuted: a spin of absolute value N, allowed by the documentation, returns coefficients of another n."
  },
  {
   "property": "C58",
   "status": "proved",
   "theorems": [
    "C58_exists",
    "C58_unique",
    "C58_range",
    "C58_derivative",
    "C58_nodes_fixed",
    "C58_fixed_nodes",
    "C58_ends_near",
    "C58_converges",
    "C58_weights"
   ],
   "note": "Exact real arithmetic, so round-off in the iteration is not modelled; the tolerance 1e-14 and the starting points are those of the code. NaN and infinities are errors of the model and shown not to occur."
  },
  {
   "property": "C59",
   "status": "proved",
   "theorems": [
    "C59_agree",
    "C59_transform_agree",
    "C59_mw",
    "C59_mwss",
    "C59_transform_mwss",
    "C59_dh",
    "C59_gl"
   ],
   "note": "Exact arithmetic. For gl the iteration of C58 is used, hence the error bound instead of equality."
  },
  {
   "property": "C60",
   "status": "proved",
   "theorems": [
    "C60_slice",
    "C60_finite",
    "C60_agrees",
    "C60_padding_refuted",
    "C60_rejects_refuted",
    "C60_near_pole_refuted"
   ],
   "note": "IEEE arithmetic without rounding: infinities and NaN are values. The traced loops run past the degree; the theorem is about the orders of the degree, as documented. Refuted: padding is not zero, orders outside the degree are not refused, values within 1e-10 of a pole are those of the pole."
  },
  {
   "property": "C61",
   "status": "proved",
   "theorems": [
    "C61_agrees",
    "C61_error",
    "C61_exact",
    "C61_pm_error",
    "C61_pm_reference",
    "C61_pm_recover"
   ],
   "note": "Kernels exact at the colatitudes: equality with the refined reference transform, the error formula and recovery on the exact schemes. Price-McEwen kernels: error formula for the step functions at the angles used, limit towards the refined reference transform, and recovery up to eps. The in-place update is modelled by value."
  },
  {
   "property": "C62",
   "status": "proved",
   "theorems": [
    "C62_synthesis",
    "C62_recovery",
    "C62_round_trip",
    "C62_reference",
    "C62_backends",
    "C62_backend_choice",
    "C62_missing",
    "C62_rejects",
    "C62_iterations_refuted",
    "C62_library",
    "C62_lower_refuted"
   ],
   "note": "The library is a parameter with a contract (Spec/CBackendSpec.v); C62_library shows that libraries keeping it exist. L_lower is ignored by this method: C62_lower_refuted. Iterations with this method end in a KeyError: C62_iterations_refuted."
  },
  {
   "property": "C63",
   "status": "proved",
   "theorems": [
    "C63_inverse",
    "C63_inverse_exact",
    "C63_forward",
    "C63_forward_exact",
    "C63_real_inverse",
    "C63_odd_refuted",
    "C63_real_forward",
    "C63_forward_reality_refuted"
   ],
   "note": "For the reality flag: proved for even L, refuted for every odd L >= 3 (C63_odd_refuted); forward with the reality flag proved for cotangents of real signals, refuted for others on dh and gl (C63_forward_reality_refuted)."
  },
  {
   "property": "C64",
   "status": "proved",
   "theorems": [
    "C64_synthesis",
    "C64_analysis",
    "C64_reference",
    "C64_error",
    "C64_map2alm_gradient",
    "C64_alm2map_gradient",
    "C64_shapes",
    "C64_missing",
    "C64_rejects",
    "C64_library",
    "C64_ignored_refuted"
   ],
   "note": "The library is a parameter with a contract (Spec/CBackendSpec.v); C64_library shows that libraries keeping it exist. spin, L_lower and reality=False are ignored by this method: C64_ignored_refuted."
  },
  {
   "property": "C65",
   "status": "proved",
   "theorems": [
    "C65_synthesis",
    "C65_recovery",
    "C65_round_trip",
    "C65_reference_inverse",
    "C65_reference_forward",
    "C65_lower",
    "C65_missing",
    "C65_rejects",
    "C65_case_refuted",
    "C65_library",
    "C65_lower_refuted"
   ],
   "note": "The library is a parameter with a contract for every spin in use; C65_library shows that one library keeps it for all spins. L_lower > 0 is handled differently from the other methods: C65_lower, C65_lower_refuted."
  },
  {
   "property": "C66",
   "status": "proved",
   "theorems": [
    "C66_error",
    "C66_binary64",
    "C66_operator",
    "C66_vectorised",
    "C66_exact",
    "C66_binary64_rounded",
    "C66_jax",
    "C66_jax_binary32",
    "C66_jax_binary64",
    "C66_jax_exact",
    "C66_agree"
   ],
   "note": "Rounded arithmetic as an arbitrary record of operations with a relative and an underflow error bound; Flocq's binary64 and binary32 roundings are proved to be instances. Overflow, infinities and NaNs are not modelled (values of the numpy routine stay below 3, those of the JAX routine below 9 (2l)(2l-1)). Sine and cosine are assumed correct to 4 u."
  },
  {
   "property": "C67",
   "status": "proved",
   "theorems": [
    "C67_fft",
    "C67_ifft",
    "C67_inverse",
    "C67_forward",
    "C67_inverse_agree",
    "C67_forward_agree",
    "C67_norm_refuted",
    "C67_rejects",
    "C67_pure_refuted",
    "C67_refine_refuted",
    "C67_rules_refuted"
   ],
   "note": "Runs are relations over the plan cache of C15 (Model/Cuda.v), the operand buffer and the output buffer; the executable may or may not exist. XLA, MLIR and cuFFT are library contracts; arithmetic exact. Refinement with a complex map is refuted, also argument purity, the norm argument, vmap/jvp/grad."
  },
  {
   "property": "C68",
   "status": "proved",
   "theorems": [
    "C68_inverse_step",
    "C68_inverse",
    "C68_inverse_agree",
    "C68_rejects",
    "C68_warning",
    "C68_healpix_refuted",
    "C68_forward_step",
    "C68_forward",
    "C68_forward_refuted",
    "C68_gradient_refuted"
   ],
   "note": "Devices run one after the other on their blocks; pmap traces the loop body once on the shapes of a block (modelled as a shape check before anything runs). Forward on two or more devices, the gradient of the inverse there, and even numbers of devices on HEALPix are refuted. One-device forward refinement (iter > 0) is not covered by C68_forward."
  },
  {
   "property": "C69",
   "status": "proved",
   "theorems": [
    "C69_kernel",
    "C69_inverse",
    "C69_gl",
    "C69_exact",
    "C69_binary64"
   ],
   "note": "numpy, reality=False, recursion='risbo', mw, mwss, dh and gl; HEALPix is not modelled in rounded arithmetic; the forward transform is C70. Accuracy of numpy's FFT and of the powers of i is a hypothesis (met by exact transforms), as is the error of the Gauss-Legendre colatitudes. Overflow, infinities and NaNs are not modelled. Products and sums of complex numbers are the four products and two sums of the textbook formula (no fused operations)."
  },
  {
   "property": "C70",
   "status": "proved",
   "theorems": [
    "C70_weights",
    "C70_forward",
    "C70_analysis",
    "C70_round_trip",
    "C70_exact",
    "C70_gl",
    "C70_gl_round_trip",
    "C70_binary64",
    "C70_gl_binary64"
   ],
   "note": "numpy, reality=False, recursion='risbo', dh and gl; mw and mwss are C72; HEALPix is not modelled in rounded arithmetic. Accuracy of numpy's FFT and of the powers of i is a hypothesis (met by exact transforms), as are the errors of the Gauss-Legendre colatitudes and weights. Overflow, infinities and NaNs are not modelled."
  },
  {
   "property": "C71",
   "status": "proved",
   "theorems": [
    "C71_extension",
    "C71_mw_to_mwss",
    "C71_upsample",
    "C71_signal",
    "C71_exact",
    "C71_binary64"
   ],
   "note": "numpy resampling.py; one item of the batch, scalar spin; periodic_extension for mw (the mwss branch is in the model but has no bound). The accuracy of numpy's FFTs in the Euclidean norm is a hypothesis (met by exact transforms). Overflow, infinities and NaNs are not modelled."
  },
  {
   "property": "C72",
   "status": "proved",
   "theorems": [
    "C72_weights",
    "C72_forward",
    "C72_analysis",
    "C72_round_trip",
    "C72_exact",
    "C72_binary64"
   ],
   "note": "numpy, reality=False, recursion='risbo', mw and mwss. Accuracy of numpy's FFTs and of the powers of i is a hypothesis (met by exact transforms). Overflow, infinities and NaNs are not modelled."
  },
  {
   "property": "C73",
   "status": "proved",
   "theorems": [
    "C73_jax",
    "C73_numpy",
    "C73_unusable_refuted",
    "C73_docstring_index_refuted"
   ],
   "note": "Reals with infinities and NaN; angles at which the recursion divides by zero give a number or NaN but no claim on its value. The in-place update of the caller's coefficients by the NumPy function is left out. Findings: the NumPy function cannot be called as documented (C73_unusable_refuted) and the documented row index is wrong (C73_docstring_index_refuted)."
  },
  {
   "property": "C74",
   "status": "proved",
   "theorems": [
    "C74_fft_kernel",
    "C74_fft_inverse",
    "C74_fft_exact",
    "C74_fft_binary64",
    "C74_kernel",
    "C74_inverse",
    "C74_gl",
    "C74_exact",
    "C74_binary64"
   ],
   "note": "numpy, reality=False, both modes of wigner_kernel (which of them 'auto' selects is not modelled in rounded arithmetic: the bounds hold for both), mw, mwss, dh, and gl with mode='direct', the only one available there; HEALPix is not modelled in rounded arithmetic; the forward transform is in C75. Accuracy of numpy's irfft, ifft2 and powers of i is a hypothesis (met by the exact transforms), as is the error of the Gauss-Legendre colatitudes. Overflow, infinities and NaNs are not modelled; complex products as in C69."
  },
  {
   "property": "C75",
   "status": "proved",
   "theorems": [
    "C75_forward",
    "C75_analysis",
    "C75_round_trip",
    "C75_fft_forward",
    "C75_fft_analysis",
    "C75_fft_round_trip",
    "C75_exact",
    "C75_gl",
    "C75_gl_round_trip",
    "C75_binary64",
    "C75_fft_binary64"
   ],
   "note": "numpy, reality=False, dh (both modes of wigner_kernel) and gl (mode='direct', the only one available there); mw and mwss are C76; HEALPix and 'auto' are not modelled in rounded arithmetic for the forward Wigner transform. Accuracy of numpy's fft, ifft2, irfft and powers of i is a hypothesis (met by the exact transforms), as are the errors of the Gauss-Legendre colatitudes and weights. Overflow, infinities and NaNs are not modelled; complex products as in C69."
  },
  {
   "property": "C76",
   "status": "proved",
   "theorems": [
    "C76_analysis",
    "C76_fft_analysis",
    "C76_round_trip",
    "C76_fft_round_trip",
    "C76_exact",
    "C76_fft_exact",
    "C76_binary64",
    "C76_fft_binary64"
   ],
   "note": "numpy, reality=False, mw and mwss, both modes of wigner_kernel, 2 <= N <= L (the code raises for N = 1: C54_one_plane_refuted). Bounds are for samples near a band-limited signal and for the round trip. HEALPix and 'auto' are not modelled in rounded arithmetic for the forward Wigner transform. Accuracy of numpy's fft, ifft2, irfft and powers of i is a hypothesis (met by the exact transforms). Overflow, infinities and NaNs are not modelled; complex products as in C69."
  },
  {
   "property": "C77",
   "status": "proved",
   "theorems": [
    "C77_kernel",
    "C77_inverse",
    "C77_gl_inverse",
    "C77_analysis",
    "C77_gl_analysis",
    "C77_mw_analysis",
    "C77_round_trip",
    "C77_mw_round_trip",
    "C77_exact",
    "C77_binary64"
   ],
   "note": "numpy, reality=True, spin 0, recursion='risbo', mw, mwss, dh and gl. The forward kernel is the one on the rings the code integrates over. Accuracy of numpy's rfft, irfft, fft and of the powers of i is a hypothesis (met by the exact transforms). HEALPix, overflow, infinities and NaNs are not modelled."
  },
  {
   "property": "C78",
   "status": "proved",
   "theorems": [
    "C78_kernel",
    "C78_fft_kernel",
    "C78_inverse",
    "C78_fft_inverse",
    "C78_gl_inverse",
    "C78_exact",
    "C78_binary64",
    "C78_fft_binary64"
   ],
   "note": "numpy, reality=True, inverse direction, both kernel modes, mw, mwss, dh and gl (gl: direct mode). Accuracy of numpy's ifft, irfft and of the powers of i is a hypothesis (met by the exact transforms). HEALPix, overflow, infinities and NaNs are not modelled."
  },
  {
   "property": "C79",
   "status": "proved",
   "theorems": [
    "C79_real_part",
    "C79_analysis",
    "C79_fft_analysis",
    "C79_gl",
    "C79_round_trip",
    "C79_fft_round_trip",
    "C79_exact",
    "C79_binary64",
    "C79_fft_binary64"
   ],
   "note": "numpy, reality=True, forward direction and round trip, dh (both kernel modes) and gl (direct mode; forward only). For mw and mwss see C80. Accuracy of numpy's rfft, fft, ifft, irfft and of the powers of i is a hypothesis (met by the exact transforms). HEALPix, overflow, infinities and NaNs are not modelled."
  },
  {
   "property": "C80",
   "status": "proved",
   "theorems": [
    "C80_analysis",
    "C80_fft_analysis",
    "C80_round_trip",
    "C80_fft_round_trip",
    "C80_exact",
    "C80_fft_exact",
    "C80_binary64",
    "C80_fft_binary64"
   ],
   "note": "numpy, reality=True, mw and mwss, both modes of wigner_kernel, 2 <= N <= L (the code raises for N = 1: C54_one_plane_refuted). Accuracy of numpy's rfft, fft, ifft, irfft, of the transforms in resampling.py and of the powers of i is a hypothesis (met by the exact transforms). HEALPix, overflow, infinities and NaNs are not modelled."
  }
 ]
}