{"id": "C01", "title": "Harmonic index map is a bijection", "statement": "For band-limit L, the 1D harmonic index el**2+el+m sends the set of pairs (el,m) with 0<=el<L and |m|<=el one-to-one onto 0..L**2-1, and ind2elm returns exactly the pair that elm2ind came from (and conversely).", "quantifier": "every L>=1, every valid (el,m), every index", "why_tests_cant": "A test tries a few L; an off-by-one or a sqrt rounding at a perfect square only shows at particular indices of particular L.", "anchors": ["s2fft/sampling/s2_samples.py:elm2ind", "s2fft/sampling/s2_samples.py:ind2elm", "s2fft/sampling/s2_samples.py:ncoeff"]}
{"id": "C02", "title": "2D <-> 1D coefficient layouts are lossless", "statement": "flm_2d_to_1d(flm_1d_to_2d(x,L),L) returns x for every 1D array; flm_1d_to_2d(flm_2d_to_1d(y,L),L) returns y for every 2D array whose entries with |m|>el are zero (and zeroes exactly those entries otherwise). Each coefficient keeps its (el,m) label.", "quantifier": "every L>=1 and every coefficient array", "why_tests_cant": "Losslessness is over all arrays and all L; one swapped sign of m is invisible on symmetric test data.", "anchors": ["s2fft/sampling/s2_samples.py:flm_2d_to_1d", "s2fft/sampling/s2_samples.py:flm_1d_to_2d"]}
{"id": "C03", "title": "Vectorised re-indexing equals loop re-indexing", "statement": "The jitted *_fast re-indexing functions return, entry for entry, the same array as the reference loop versions (2D->1D, 1D->2D, 2D->healpy, healpy->2D).", "quantifier": "every L>=1, every input array", "why_tests_cant": "The fast versions use computed gather indices; equality must hold at each index for each L.", "anchors": ["s2fft/sampling/reindex.py:flm_1d_to_2d_fast", "s2fft/sampling/reindex.py:flm_2d_to_1d_fast", "s2fft/sampling/reindex.py:flm_hp_to_2d_fast", "s2fft/sampling/reindex.py:flm_2d_to_hp_fast"]}
{"id": "C04", "title": "healpy layout is a bijection and round-trips for real signals", "statement": "hp_getidx maps pairs 0<=m<=el<L one-to-one onto 0..L(L+1)/2-1. flm_2d_to_hp(flm_hp_to_2d(x)) = x for each healpy-ordered array; flm_hp_to_2d(flm_2d_to_hp(y)) = y exactly for those y with zero entries for |m|>el and f[el,-m] = (-1)^m conj f[el,m] for m>=1.", "quantifier": "every L>=1, every array", "why_tests_cant": "Needs every (el,m) of every L, and the characterisation of exactly which inputs survive.", "anchors": ["s2fft/sampling/s2_samples.py:hp_getidx", "s2fft/sampling/s2_samples.py:flm_hp_to_2d", "s2fft/sampling/s2_samples.py:flm_2d_to_hp", "s2fft/sampling/s2_samples.py:lm2lm_hp"]}
{"id": "C05", "title": "3D <-> 1D Wigner coefficient layouts are lossless", "statement": "elmn2ind maps valid (el,m,n) (|n|<N, 0<=el<L, |m|<=el) one-to-one onto 0..(2N-1)L**2-1; flmn_3d_to_1d(flmn_1d_to_3d(x)) = x, and flmn_1d_to_3d(flmn_3d_to_1d(y)) is y with entries |m|>el zeroed.", "quantifier": "every L>=1, N>=1, every coefficient array", "why_tests_cant": "Same index arithmetic hazards as 2D with an additional block dimension.", "anchors": ["s2fft/sampling/so3_samples.py:elmn2ind", "s2fft/sampling/so3_samples.py:flmn_3d_to_1d", "s2fft/sampling/so3_samples.py:flmn_1d_to_3d", "s2fft/sampling/so3_samples.py:flmn_shape_1d"]}
{"id": "C06", "title": "Shapes agree across the API", "statement": "For each sampling scheme and each valid parameter, the number of samples announced by f_shape equals the number of rings times samples per ring (sum of nphi_ring for healpix, = 12*nside**2), ftm_shape is (ntheta, number of stored orders), the extended theta count is 2L-1 (mw) and 2L (mwss), and SO(3) shapes are the sphere shapes times 2N-1. Unsupported sampling names raise ValueError.", "quantifier": "every sampling string, L, N, nside", "why_tests_cant": "Each shape is a small formula, but the consistency is among several formulas for all sizes.", "anchors": ["s2fft/sampling/s2_samples.py:ntheta", "s2fft/sampling/s2_samples.py:nphi_equiang", "s2fft/sampling/s2_samples.py:nphi_ring", "s2fft/sampling/s2_samples.py:f_shape", "s2fft/sampling/s2_samples.py:ftm_shape", "s2fft/sampling/s2_samples.py:ntheta_extension", "s2fft/sampling/so3_samples.py:f_shape", "s2fft/sampling/so3_samples.py:fnab_shape", "s2fft/sampling/so3_samples.py:flmn_shape"]}
{"id": "C07", "title": "HEALPix rings partition the pixels", "statement": "For each nside, ring t has 4(t+1) pixels in the north cap, 4*nside in the equatorial band and 4(4*nside-1-t) in the south cap; consecutive rings occupy consecutive blocks that cover 0..12*nside**2-1 exactly once; ring t and ring 4*nside-2-t have equal length. A ring index out of range raises ValueError.", "quantifier": "every nside>=1, every ring, every pixel", "why_tests_cant": "Coverage without gaps or overlaps is a statement about every nside.", "anchors": ["s2fft/sampling/s2_samples.py:nphi_ring", "s2fft/utils/healpix_ffts.py:healpix_fft_numpy", "s2fft/utils/healpix_ffts.py:healpix_ifft_numpy"]}
{"id": "C08", "title": "Colatitude grids are ordered and symmetric", "statement": "thetas(L,sampling) is strictly increasing and lies in [0,pi]; mw ends at pi and excludes 0; mwss includes both poles; dh excludes both; equiangular mwss/dh grids and HEALPix rings are symmetric under theta -> pi-theta; HEALPix colatitudes lie strictly inside (0,pi). t2theta and thetas accept the same sampling names (finding: t2theta rejects gl).", "quantifier": "every L, nside and ring index", "why_tests_cant": "Monotonicity across the cap/equator switch must hold for each nside.", "anchors": ["s2fft/sampling/s2_samples.py:thetas", "s2fft/sampling/s2_samples.py:t2theta", "s2fft/sampling/s2_samples.py:_t2theta_healpix"]}
{"id": "C09", "title": "HEALPix ring pixel longitudes and phase shift", "statement": "Within ring t pixel p has longitude in [0,2pi), consecutive pixels are 2pi/nphi apart, and the phase-shift factor ring_phase_shift_hp applied to order m equals exp(+-i m phi_0) where phi_0 is the longitude of the first pixel of the ring, in scalar, vectorised and JAX versions alike; forward and inverse shifts cancel.", "quantifier": "every nside, ring t, order m", "why_tests_cant": "Half-pixel offsets alternate by ring parity; a wrong parity hits only some rings.", "anchors": ["s2fft/sampling/s2_samples.py:p2phi_ring", "s2fft/sampling/s2_samples.py:ring_phase_shift_hp", "s2fft/utils/healpix_ffts.py:p2phi_rings", "s2fft/utils/healpix_ffts.py:ring_phase_shifts_hp", "s2fft/precompute_transforms/construct.py:healpix_phase_shifts"]}
{"id": "C10", "title": "hp_ang2pix returns a valid pixel and inverts the ring geometry", "statement": "For each theta and each 0<=phi<2pi, hp_ang2pix(nside,theta,phi) is in 0..12*nside**2-1; at the exact centre of pixel p of ring t it returns the ring-order number of that pixel; a position on a ring's centre line is assigned to a pixel of that ring (finding: fails near phi=2pi on every second equatorial ring).", "quantifier": "every nside>=1, every angle pair, every pixel", "why_tests_cant": "Continuum of inputs, with region boundaries.", "anchors": ["s2fft/sampling/s2_samples.py:hp_ang2pix", "s2fft/sampling/s2_samples.py:_hp_zphi2pix"]}
{"id": "C11", "title": "HEALPix inverse FFT sums all orders on each ring (aliasing handled by folding)", "statement": "healpix_ifft(ftm,L,nside) returns on ring t, pixel p, the value sum_{k=0}^{2L-1} ftm[t,k] exp(i (k-L) 2 pi p / nphi_t): all 2L orders contribute although the ring only has nphi_t samples.", "quantifier": "every L, nside with 4*nside<=2L, each ring and pixel, every ftm", "why_tests_cant": "Folding is modular index arithmetic for each nphi.", "anchors": ["s2fft/utils/healpix_ffts.py:spectral_folding", "s2fft/utils/healpix_ffts.py:healpix_ifft_numpy", "s2fft/utils/healpix_ffts.py:healpix_ifft_jax"]}
{"id": "C12", "title": "HEALPix forward FFT is the periodic extension of the ring DFT", "statement": "healpix_fft(f,L,nside) returns in row t, column k the ring DFT sum_p f[t,p] exp(-i (k-L) 2 pi p / nphi_t) for each of the 2L stored orders, NumPy and JAX alike; it raises an assertion error (NumPy) when a ring has more than 2L pixels.", "quantifier": "every L, nside, each ring and order, every map", "why_tests_cant": "Extension is modular arithmetic over every ring length.", "anchors": ["s2fft/utils/healpix_ffts.py:spectral_periodic_extension", "s2fft/utils/healpix_ffts.py:spectral_periodic_extension_jax", "s2fft/utils/healpix_ffts.py:healpix_fft_numpy", "s2fft/utils/healpix_ffts.py:healpix_fft_jax"]}
{"id": "C13", "title": "HEALPix FFT routines do not modify their inputs and are repeatable", "statement": "Calling healpix_ifft should leave the caller's ftm as it was and be repeatable. JAX: always. NumPy: the array is overwritten in place; columns a ring can resolve receive the sum of their residue class, so the call is pure exactly when no ring has content at orders it cannot resolve, and otherwise a second call on the same array returns a different map (finding).", "quantifier": "every ftm, every history of calls", "why_tests_cant": "Aliasing bugs only show when the caller re-uses the array.", "anchors": ["s2fft/utils/healpix_ffts.py:spectral_folding", "s2fft/utils/healpix_ffts.py:healpix_ifft_numpy"]}
{"id": "C14", "title": "CUDA ring kernels compute the same folding/extension as the Python code", "statement": "The device routines' ring lengths and offsets equal nphi_ring and the running ring offsets, spectral_extension writes for each (ring, order) what the Python extension writes, and spectral_folding writes the ifftshifted Python folding; fft-shift callbacks permute each ring by half its length and stay inside the ring; all reads and writes are in bounds.", "quantifier": "every nside, L with 4*nside<=2L, each thread index, every input", "why_tests_cant": "Per-thread index arithmetic (C remainder on negatives) for each launch size.", "anchors": ["lib/src/s2fft_kernels.cu:computeNphi", "lib/src/s2fft_kernels.cu:spectral_folding", "lib/src/s2fft_kernels.cu:spectral_extension", "lib/src/s2fft_callbacks.cu:fft_shift"]}
{"id": "C15", "title": "CUDA plan cache returns the plan for the requested descriptor after any history", "statement": "After any sequence of descriptor builds and transform calls, the executor used for a descriptor executes the plans a fresh initialisation for this descriptor would create (same ring offsets, lengths, normalisation), and repeated use does not create further plans.", "quantifier": "every sequence of API calls", "why_tests_cant": "History-dependent: needs every interleaving of descriptors and repeated initialisation.", "anchors": ["lib/src/plan_cache.cc:GetS2FFTExec", "lib/src/s2fft.cu:Initialize", "lib/src/extensions.cc:build_healpix_fft_descriptor", "lib/include/s2fft.h:s2fftDescriptor"]}
{"id": "C16", "title": "MW to MWSS resampling is exact for band-limited signals", "statement": "If f is sampled on the mw grid of band-limit L from a band-limited spin-s signal, mw_to_mwss(f,L,s) returns its samples on the mwss grid exactly (exact arithmetic), NumPy and JAX alike.", "quantifier": "every L, spin, every band-limited signal", "why_tests_cant": "Interpolation exactness is over a 2L-1 dimensional space for each L.", "anchors": ["s2fft/utils/resampling.py:mw_to_mwss", "s2fft/utils/resampling.py:mw_to_mwss_theta", "s2fft/utils/resampling.py:mw_to_mwss_phi", "s2fft/utils/resampling_jax.py:mw_to_mwss"]}
{"id": "C17", "title": "Upsampling in theta is exact and undone by downsampling", "statement": "upsample_by_two_mwss(f,L,s) returns the samples of the same band-limited signal on the theta grid of twice the density; downsampling the extended result by two returns the original; the documented domains are supported.", "quantifier": "every L, spin, every signal", "why_tests_cant": "Nyquist-frequency handling is only visible for signals with energy there.", "anchors": ["s2fft/utils/resampling.py:upsample_by_two_mwss", "s2fft/utils/resampling.py:upsample_by_two_mwss_ext", "s2fft/utils/resampling.py:downsample_by_two_mwss", "s2fft/utils/resampling_jax.py:upsample_by_two_mwss"]}
{"id": "C18", "title": "Periodic extension continues the signal on the sphere", "statement": "periodic_extension(f,L,s) continues samples to theta in [0,2pi) so that the value at 2pi-theta is (-1)^s times the value at theta with phi shifted by pi; unextend returns the original samples; spatial and harmonic versions agree.", "quantifier": "every L, spin, every sampled signal", "why_tests_cant": "Parity signs (-1)^(m+s) depend on every order.", "anchors": ["s2fft/utils/resampling.py:periodic_extension", "s2fft/utils/resampling.py:periodic_extension_spatial_mwss", "s2fft/utils/resampling.py:unextend", "s2fft/utils/resampling_jax.py:periodic_extension"]}
{"id": "C19", "title": "Quadrature weights integrate band-limited functions exactly", "statement": "For mw, mwss and dh sampling the theta weights returned by quad_weights/quad_weights_transform integrate each trigonometric polynomial of the degree the transforms need (even, degree < 2L) against sin(theta) exactly; total weight over the sphere is 4 pi for every scheme including healpix.", "quantifier": "every L, every trigonometric polynomial in the range", "why_tests_cant": "Exactness is over all frequencies for each L.", "anchors": ["s2fft/utils/quadrature.py:quad_weights", "s2fft/utils/quadrature.py:quad_weights_transform", "s2fft/utils/quadrature.py:quad_weight_dh_theta_only", "s2fft/utils/quadrature.py:quad_weights_mw_theta_only", "s2fft/utils/quadrature.py:mw_weights", "s2fft/utils/quadrature_jax.py:quad_weights_transform"]}
{"id": "C20", "title": "FFT conjugation identity used by the JAX paths", "statement": "conj(fft(conj(x), backward)) equals ifft(x, forward): the JAX transforms return what the NumPy transforms return.", "quantifier": "every length n, every vector", "why_tests_cant": "Identity over all vectors.", "anchors": ["s2fft/transforms/spherical.py:inverse_jax", "s2fft/precompute_transforms/spherical.py:inverse_transform_jax", "s2fft/utils/healpix_ffts.py:healpix_ifft_jax"]}
{"id": "C21", "title": "All reference inverse methods agree", "statement": "base_transforms.spherical inverse with method direct, sov, sov_fft and sov_fft_vectorized return the same samples for the same coefficients, for each sampling scheme. (The FFT methods assume the scheme name in lower case, L >= 2 nside on healpix and, with the reality flag, real coefficients of order 0; the unrestricted claim is refuted.)", "quantifier": "every L, spin, sampling, L_lower, reality flag and coefficient array", "why_tests_cant": "Equality of functions.", "anchors": ["s2fft/base_transforms/spherical.py:_compute_inverse_direct", "s2fft/base_transforms/spherical.py:_compute_inverse_sov", "s2fft/base_transforms/spherical.py:_compute_inverse_sov_fft", "s2fft/base_transforms/spherical.py:_compute_inverse_sov_fft_vectorized"]}
{"id": "C22", "title": "All reference forward methods agree", "statement": "base_transforms.spherical forward with method direct, sov, sov_fft and sov_fft_vectorized return the same coefficients for the same samples, for each sampling scheme. (With the reality flag the map has to be that of a real signal; the unrestricted claim is refuted on mwss.)", "quantifier": "every L, spin, sampling, L_lower, reality flag and sample array", "why_tests_cant": "Equality of functions.", "anchors": ["s2fft/base_transforms/spherical.py:_compute_forward_direct", "s2fft/base_transforms/spherical.py:_compute_forward_sov", "s2fft/base_transforms/spherical.py:_compute_forward_sov_fft", "s2fft/base_transforms/spherical.py:_compute_forward_sov_fft_vectorized"]}
{"id": "C23", "title": "Inverse transform synthesises spin spherical harmonics", "statement": "inverse(flm) at sample (theta_t,phi_p) equals sum over max(|spin|,L_lower)<=el<L, |m|<=el of flm[el,m] times the spin-weighted spherical harmonic (-1)^s sqrt((2el+1)/4pi) d^el_{m,-s}(theta_t) exp(i m phi_p), with d given by Wigner's explicit formula.", "quantifier": "every L, spin, sampling, coefficient array, sample", "why_tests_cant": "Closed-form equality for all degrees and angles.", "anchors": ["s2fft/base_transforms/spherical.py:inverse", "s2fft/base_transforms/spherical.py:_inverse"]}
{"id": "C24", "title": "Round trip on MW and MWSS is exact", "statement": "forward(inverse(flm,L,spin,mw|mwss),L,spin,mw|mwss) = flm for each array of coefficients supported on |m|<=el, el>=|spin| (exact arithmetic).", "quantifier": "every L, spin with |spin|<L, every coefficient array", "why_tests_cant": "Exactness of a sampling theorem for every L.", "anchors": ["s2fft/base_transforms/spherical.py:forward", "s2fft/base_transforms/spherical.py:inverse", "s2fft/utils/resampling.py:mw_to_mwss", "s2fft/utils/quadrature.py:quad_weights_transform"]}
{"id": "C25", "title": "Round trip on DH is exact", "statement": "forward(inverse(flm,L,spin,dh),L,spin,dh) = flm for each admissible coefficient array (exact arithmetic).", "quantifier": "every L, spin, coefficient array", "why_tests_cant": "Exactness of a sampling theorem for every L.", "anchors": ["s2fft/base_transforms/spherical.py:forward", "s2fft/base_transforms/spherical.py:inverse", "s2fft/utils/quadrature.py:quad_weight_dh_theta_only"]}
{"id": "C26", "title": "Round trip on GL is exact given exact Gauss-Legendre nodes", "statement": "forward(inverse(flm,L,spin,gl),L,spin,gl) = flm provided the library nodes and weights integrate polynomials of degree <= 2L-1 exactly.", "quantifier": "every L, spin, coefficient array, every node set meeting the Gauss-Legendre property", "why_tests_cant": "Exactness for every L.", "anchors": ["s2fft/base_transforms/spherical.py:forward", "s2fft/base_transforms/spherical.py:inverse", "s2fft/utils/quadrature.py:quad_weights_gl", "s2fft/sampling/s2_samples.py:t2theta"]}
{"id": "C27", "title": "Risbo recursion yields the Wigner d-matrices", "statement": "Starting from the zero array and calling risbo.compute_full for el=0,1,...,l leaves in the array d^l_{m,n}(beta) at [m+L-1,n+L-1] for |m|,|n|<=l and 0 elsewhere; the vectorised and JAX versions return the same.", "quantifier": "every L, el<L, beta, m, n", "why_tests_cant": "Recursion correctness is inductive in el.", "anchors": ["s2fft/recursions/risbo.py:compute_full", "s2fft/recursions/risbo.py:compute_full_vectorised", "s2fft/recursions/risbo_jax.py:compute_full"]}
{"id": "C28", "title": "Turok recursion yields slices of the Wigner d-matrices", "statement": "turok.compute_slice(beta,el,L,mm) returns d^el_{m,mm}(beta) at index m+L-1 for |m|<=el and 0 elsewhere, and turok.compute_full returns the whole matrix, including the poles beta=0, pi and el=0, whatever renormalisations happen during the recursion; el<mm or el>=L raise ValueError. Angles other than the poles but within the np.isclose tolerance of one are excluded: there the pole values are returned.", "quantifier": "every L, el<L, |mm|<=el, every beta in [0,pi] that is a pole or outside the np.isclose tolerance of the poles", "why_tests_cant": "Recursion with data-dependent rescaling; continuum of angles.", "anchors": ["s2fft/recursions/turok.py:compute_slice", "s2fft/recursions/turok.py:compute_quarter_slice", "s2fft/recursions/turok_jax.py:compute_slice"]}
{"id": "C29", "title": "Trapani-Navaza recursion yields the Wigner d-matrices at pi/2", "statement": "Starting from init and calling trapani.compute_full for el=1..l yields d^l_{m,n}(pi/2) for |m|,|n|<=l; loop, vectorised and JAX implementations agree; unknown implementation names raise ValueError.", "quantifier": "every L, el<L, m, n", "why_tests_cant": "Recursion correctness is inductive in el and m.", "anchors": ["s2fft/recursions/trapani.py:compute_full", "s2fft/recursions/trapani.py:compute_eighth", "s2fft/recursions/trapani.py:fill_half2full"]}
{"id": "C30", "title": "Transforms are linear", "statement": "inverse and forward - the reference transforms with every sampling and method, the on-the-fly transforms, the transforms with a precomputed kernel; on the sphere and on SO(3) - commute with complex linear combinations of their inputs; with the reality flag, with real ones.", "quantifier": "every pair of inputs and scalars", "why_tests_cant": "Universally quantified identity.", "anchors": ["s2fft/base_transforms/spherical.py:inverse", "s2fft/base_transforms/spherical.py:forward", "s2fft/precompute_transforms/spherical.py:inverse_transform", "s2fft/precompute_transforms/spherical.py:forward_transform", "s2fft/base_transforms/wigner.py:inverse", "s2fft/base_transforms/wigner.py:forward", "s2fft/transforms/wigner.py:inverse", "s2fft/transforms/wigner.py:forward", "s2fft/precompute_transforms/wigner.py:inverse_transform", "s2fft/precompute_transforms/wigner.py:forward_transform"]}
{"id": "C31", "title": "Reality flag is sound", "statement": "For coefficients of a real signal (spin 0, f[el,-m]=(-1)^m conj f[el,m]) the inverse transform with reality=True returns the same real samples as with reality=False; the forward transform of real samples with reality=True returns the same coefficients as with reality=False, and they satisfy the symmetry. With a spin other than 0 the flag is dropped (with a warning), so the result is that without the flag; on the on-the-fly transforms this fails.", "quantifier": "every L, sampling, real signal; every spin for the last sentence", "why_tests_cant": "Symmetry over all inputs.", "anchors": ["s2fft/base_transforms/spherical.py:_compute_inverse_sov_fft", "s2fft/base_transforms/spherical.py:_compute_forward_sov_fft", "s2fft/transforms/spherical.py:inverse_numpy", "s2fft/transforms/spherical.py:forward_numpy", "s2fft/precompute_transforms/spherical.py:inverse_transform"]}
{"id": "C32", "title": "Degrees below the lower band-limit or the spin neither contribute nor appear", "statement": "inverse ignores coefficients with el<max(|spin|,L_lower) or |m|>el; forward returns zero there; in the reference and the on-the-fly transforms. (The on-the-fly inverse transforms assume zeros at el<|spin|; without that the claim is refuted.)", "quantifier": "every L, L_lower<L, spin, arrays with arbitrary content outside the admissible range", "why_tests_cant": "Depends on arbitrary garbage in ignored entries and on L_lower/spin combinations.", "anchors": ["s2fft/base_transforms/spherical.py:_inverse", "s2fft/base_transforms/spherical.py:_forward", "s2fft/transforms/spherical.py:inverse_numpy", "s2fft/transforms/spherical.py:forward_jax", "s2fft/transforms/otf_recursions.py:inverse_latitudinal_step", "s2fft/transforms/otf_recursions.py:forward_latitudinal_step_jax"]}
{"id": "C33", "title": "Arguments are validated before computing", "statement": "The reference transforms raise AssertionError for arrays of the wrong shape, L <= 0 and lower band-limits outside [0, L), KeyError for unknown methods; the dispatching transforms raise ValueError for unknown methods, the documented Warning for spin >= 8 with the recursive methods and ValueError for healpy or SSHT with unsupported samplings.", "quantifier": "every argument combination", "why_tests_cant": "Combinatorial argument space.", "anchors": ["s2fft/base_transforms/spherical.py:_inverse", "s2fft/base_transforms/spherical.py:_forward", "s2fft/transforms/spherical.py:inverse", "s2fft/transforms/spherical.py:forward", "s2fft/transforms/wigner.py:inverse", "s2fft/precompute_transforms/construct.py:spin_spherical_kernel", "s2fft/sampling/so3_samples.py:f_shape"]}
{"id": "C34", "title": "Wigner transform round trip is exact", "statement": "base_transforms.wigner.forward(inverse(flmn,L,N)) = flmn on mw, mwss and dh for each array of Wigner coefficients supported on |m|<=el, |n|<=min(el,N-1) (exact arithmetic).", "quantifier": "every L, N<=L, every coefficient array", "why_tests_cant": "Exactness of a sampling theorem on SO(3).", "anchors": ["s2fft/base_transforms/wigner.py:inverse", "s2fft/base_transforms/wigner.py:forward"]}
{"id": "C35", "title": "Wigner reality symmetry", "statement": "For real signals on SO(3), forward with reality=True returns the coefficients computed with reality=False: f[-n,el,-m] = (-1)^(m+n) conj f[n,el,m]; generated test signals satisfy it.", "quantifier": "every L, N, every real signal", "why_tests_cant": "Symmetry over all inputs.", "anchors": ["s2fft/base_transforms/wigner.py:forward", "s2fft/transforms/wigner.py:forward_numpy", "s2fft/utils/signal_generator.py:generate_flmn"]}
{"id": "C36", "title": "Precomputed-kernel transforms equal the on-the-fly transforms", "statement": "The kernel returned by spin_spherical_kernel contracts with the input to the same result as the reference transform (forward and inverse).", "quantifier": "every L, spin, sampling, mode, input array", "why_tests_cant": "Equality of two algorithms for all inputs.", "anchors": ["s2fft/precompute_transforms/construct.py:spin_spherical_kernel", "s2fft/precompute_transforms/spherical.py:inverse_transform", "s2fft/precompute_transforms/spherical.py:forward_transform"]}
{"id": "C37", "title": "Fourier-Wigner decomposition", "statement": "d^l_{mn}(beta) = i^(n-m) sum_a d^l_{am}(pi/2) d^l_{an}(pi/2) exp(i a beta) with the code's signs, so the Fourier-Wigner inverse transform synthesises Wigner D-functions.", "quantifier": "every l, m, n, beta", "why_tests_cant": "Identity over all degrees and angles.", "anchors": ["s2fft/precompute_transforms/fourier_wigner.py:inverse_transform", "s2fft/precompute_transforms/fourier_wigner.py:forward_transform", "s2fft/precompute_transforms/construct.py:fourier_wigner_kernel"]}
{"id": "C38", "title": "Iterative refinement converges to the exact coefficients", "statement": "forward_with_iterative_refinement with n_iter iterations returns sum_{j<=n} (I-FB)^j F f for linear forward F and backward B; n_iter=0 is the plain forward; for f=B(x) the error is (I-FB)^(n+1) x up to sign, so an exact forward is a fixed point and a contraction converges geometrically.", "quantifier": "every n_iter, every linear F and B, every signal", "why_tests_cant": "Induction over number of iterations.", "anchors": ["s2fft/utils/iterative_refinement.py:forward_with_iterative_refinement"]}
{"id": "C39", "title": "Generated signals are admissible", "statement": "generate_flm returns zero for el<max(L_lower,|spin|) and |m|>el, and with reality=True satisfies the real-signal symmetry with real m=0 entries; generate_flmn likewise; each admissible entry is one of the random draws.", "quantifier": "every L, L_lower, spin, N, every random stream", "why_tests_cant": "Random: holds for each stream of draws.", "anchors": ["s2fft/utils/signal_generator.py:generate_flm", "s2fft/utils/signal_generator.py:generate_flmn", "s2fft/utils/signal_generator.py:complex_el_and_m_indices"]}
{"id": "C40", "title": "Coefficient rotation is unitary", "statement": "rotate_flms with angles (alpha,beta,gamma) preserves the power sum_m |f[el,m]|^2 of each degree, zero angles give the identity, rotations about z compose, and rotation then inverse rotation returns the input.", "quantifier": "every L, every angles, every coefficient array", "why_tests_cant": "Continuum of angles.", "anchors": ["s2fft/utils/rotation.py:rotate_flms", "s2fft/utils/rotation.py:generate_rotate_dls"]}
{"id": "C41", "title": "On-the-fly (Price-McEwen) recursion yields the Wigner d-functions", "statement": "The latitudinal steps of s2fft.inverse/forward apply at each sample the factors d^el_{m,-spin}(theta) of Wigner's explicit formula, whatever the per-step renormalisation, for each L_lower; the JAX step agrees with the NumPy step including the poles.", "quantifier": "every L, L_lower, spin, theta in (0,pi) where no intermediate entry vanishes, each coefficient array", "why_tests_cant": "Recursion with data-dependent renormalisation.", "anchors": ["s2fft/transforms/otf_recursions.py:inverse_latitudinal_step", "s2fft/transforms/otf_recursions.py:forward_latitudinal_step", "s2fft/recursions/price_mcewen.py:generate_precomputes"]}
{"id": "C42", "title": "Torch wrapper preserves the structure and the values of pytrees", "statement": "wrap_as_torch_function converts each tensor argument at each position of nested tuples/lists/dicts, leaves non-tensor leaves and the nesting untouched, and the wrapped function returns the converted value of the wrapped function.", "quantifier": "every nested argument structure", "why_tests_cant": "Unbounded nesting.", "anchors": ["s2fft/utils/torch_wrapper.py:tree_map", "s2fft/utils/torch_wrapper.py:wrap_as_torch_function"]}
{"id": "C43", "title": "CUDA status codes distinguish failure from success", "statement": "SUCCEEDED(code) is true exactly for success codes and FAILED(code) for the E_* codes, on the LP64 targets the extension is built for.", "quantifier": "every status code", "why_tests_cant": "Depends on the width of long; tests on one code path do not show it.", "anchors": ["lib/include/hresult.h:SUCCEEDED", "lib/include/hresult.h:E_FAIL"]}
{"id": "C44", "title": "Power is preserved (Parseval)", "statement": "On dh and gl, whose weights are exact to degree 2L-1, the quadrature-weighted power of the synthesised signal equals the sum of |flm|^2 over the admissible coefficients.", "quantifier": "every L, spin, coefficient array", "why_tests_cant": "Universally quantified identity.", "anchors": ["s2fft/base_transforms/spherical.py:inverse", "s2fft/utils/quadrature.py:quad_weights"]}
{"id": "C45", "title": "Registered gradients of the JAX transforms are transposes", "statement": "The latitudinal step that inverse_jax registers as backward pass (the forward step) is the transpose of its own latitudinal step, and vice versa, including the rings at the poles, for each L_lower.", "quantifier": "every L, L_lower, spin, sampling scheme, coefficient array, cotangent array and regular ring angles", "why_tests_cant": "Finite-difference checks sample a few directions at a few band-limits.", "anchors": ["s2fft/transforms/spherical.py:inverse_jax", "s2fft/transforms/spherical.py:forward_jax", "s2fft/transforms/otf_recursions.py:forward_latitudinal_step_jax"]}
{"id": "C46", "title": "On-the-fly inverse transform synthesises the signal", "statement": "s2fft.inverse (numpy, jax, torch, jax_cuda off HEALPix) returns at each sample the sum over el, m of flm[el,m] times the spin-weighted harmonic at the angle used for the ring (the pole for the polar rings of mw and mwss), for each sampling, reality flag, L_lower and with or without precomputes; the backends agree, and as the angles approach the colatitudes of the scheme the result approaches that of the reference transform.", "quantifier": "every L>=2, spin<8 with |spin|<L, L_lower<=L-2, sampling, nside, coefficient array, angle function whose angles are regular", "why_tests_cant": "Needs all band-limits, spins and coefficient arrays and a limit.", "anchors": ["s2fft/transforms/spherical.py:inverse", "s2fft/transforms/spherical.py:inverse_numpy", "s2fft/transforms/spherical.py:inverse_jax", "s2fft/transforms/otf_recursions.py:inverse_latitudinal_step"]}
{"id": "C47", "title": "On-the-fly forward transform analyses the signal", "statement": "s2fft.forward returns the quadrature sums over the samples at the angles used for the rings; from samples of a band-limited signal on mw, mwss, dh and gl it returns its coefficients up to an error that vanishes as samples and angles become exact; it approaches the reference forward transform for any map on every sampling; numpy and JAX agree.", "quantifier": "every L>=2, spin<8 with |spin|<L, L_lower<=L-2, sampling, nside, map, angle function whose angles are regular", "why_tests_cant": "Needs all band-limits, spins and maps and a limit.", "anchors": ["s2fft/transforms/spherical.py:forward", "s2fft/transforms/spherical.py:forward_numpy", "s2fft/transforms/spherical.py:forward_jax", "s2fft/transforms/otf_recursions.py:forward_latitudinal_step"]}
{"id": "C48", "title": "On-the-fly round trip", "statement": "s2fft.forward(s2fft.inverse(flm)) returns flm on mw, mwss, dh and gl for each admissible coefficient array, up to an error that vanishes as the angles used approach the colatitudes; any pairing of the numpy and JAX methods.", "quantifier": "every L>=2, spin<8 with |spin|<L, L_lower<=L-2, reality flag, coefficient array", "why_tests_cant": "Exactness of a sampling theorem for every L.", "anchors": ["s2fft/transforms/spherical.py:inverse", "s2fft/transforms/spherical.py:forward"]}
{"id": "C49", "title": "On-the-fly inverse Wigner transform synthesises the signal on SO(3)", "statement": "s2fft.wigner.inverse (numpy, jax, torch) returns at each sample (gamma, ring, longitude) the sum over n, el, m of flmn[n,el,m] times the conjugate Wigner D-function at the angle used for the ring (the pole for polar rings of mw and mwss); degrees below max(L_lower,|n|) are not used; the methods agree, and as the angles approach the colatitudes the result approaches that of the reference transform.", "quantifier": "every L>=2, N<8 with N<=L, L_lower<=L-2, sampling, nside, reality flag, coefficient array, angle function whose angles are regular for every spin", "why_tests_cant": "Needs all band-limits and coefficient arrays and a limit.", "anchors": ["s2fft/transforms/wigner.py:inverse", "s2fft/transforms/wigner.py:inverse_numpy", "s2fft/transforms/wigner.py:inverse_jax"]}
{"id": "C50", "title": "On-the-fly forward Wigner transform analyses the signal on SO(3)", "statement": "s2fft.wigner.forward returns the quadrature sums over the samples at the angles used for the rings; from samples of a band-limited signal on mw, mwss, dh and gl it returns its coefficients up to an error that vanishes as samples and angles become exact; degrees below max(L_lower,|n|) are zero; it approaches the reference transform for any map on every sampling; the methods agree.", "quantifier": "every L>=2, N<8 with N<=L, L_lower<=L-2, sampling, nside, reality flag, map, angle function whose angles are regular for every spin", "why_tests_cant": "Needs all band-limits and maps and a limit.", "anchors": ["s2fft/transforms/wigner.py:forward", "s2fft/transforms/wigner.py:forward_numpy", "s2fft/transforms/wigner.py:forward_jax"]}
{"id": "C51", "title": "On-the-fly Wigner round trip", "statement": "s2fft.wigner.forward(s2fft.wigner.inverse(flmn)) returns flmn on mw, mwss, dh and gl for each admissible coefficient array, up to an error that vanishes as the angles used approach the colatitudes; any pairing of the methods.", "quantifier": "every L>=2, N<8 with N<=L, L_lower<=L-2, reality flag, coefficient array", "why_tests_cant": "Exactness of a sampling theorem for every L and N.", "anchors": ["s2fft/transforms/wigner.py:inverse", "s2fft/transforms/wigner.py:forward"]}
{"id": "C52", "title": "Kernels of the precomputed Wigner transforms", "statement": "wigner_kernel and wigner_kernel_jax tabulate, for each mode (fft, direct, auto) and back end, d^l_{mn} at the colatitudes of the scheme with the normalisation (2l+1)/(8 pi^2) (inverse) or times the quadrature weights and 2 pi/(2N-1) at the rings of the resampled map (forward), with the longitude offsets of the HEALPix rings; unusable modes are rejected.", "quantifier": "every L>=1, 1<=N<=L, sampling, nside, reality flag, mode, back end", "why_tests_cant": "Compared with the transforms only for a few L and N and the default mode.", "anchors": ["s2fft/precompute_transforms/construct.py:wigner_kernel", "s2fft/precompute_transforms/construct.py:wigner_kernel_jax"]}
{"id": "C53", "title": "Precomputed inverse Wigner transform", "statement": "The inverse Wigner transform with a kernel (given or computed) returns the samples of the signal with the given coefficients, equals the reference transform and does not depend on the back end, the mode of the kernel or entries that hold no coefficient; with the reality flag it returns the samples of the real signal.", "quantifier": "every L>=1, 1<=N<=L, sampling, nside with 2nside<=L, method, coefficient array", "why_tests_cant": "Finite numerical samples; invalid entries are zero in tests.", "anchors": ["s2fft/precompute_transforms/wigner.py:inverse", "s2fft/precompute_transforms/wigner.py:inverse_transform", "s2fft/precompute_transforms/wigner.py:inverse_transform_jax"]}
{"id": "C54", "title": "Precomputed forward Wigner transform", "statement": "The forward Wigner transform with a kernel returns the quadrature sums over the samples, equals the reference transform, recovers the coefficients of band-limited signals and inverts the inverse transform on mw, mwss, dh and gl, independently of back end, mode and, for real maps, the reality flag.", "quantifier": "every L>=2, 1<=N<=L (N>=2 on mw, mwss), sampling, method, map", "why_tests_cant": "Exactness of a sampling theorem for every L and N.", "anchors": ["s2fft/precompute_transforms/wigner.py:forward", "s2fft/precompute_transforms/wigner.py:forward_transform", "s2fft/precompute_transforms/wigner.py:forward_transform_jax"]}
{"id": "C55", "title": "Synthesis of batches of spin signals", "statement": "wigner_subset_to_s2 returns, for every batch item, spin and channel, the samples of the signal of that spin with the given coefficients; a signal depends on its own coefficients only; transforming all spins below N and summing over gamma gives the Fourier-Wigner inverse transform.", "quantifier": "every L>=1, batch size, number of channels, list of spins below L (repeats allowed), sampling mw or mwss, coefficient array", "why_tests_cant": "Tests take few L, one list of distinct spins and one channel; mixing of batch, spin and channel axes shows up for general arrays only.", "anchors": ["s2fft/precompute_transforms/custom_ops.py:wigner_subset_to_s2", "s2fft/precompute_transforms/custom_ops.py:wigner_subset_to_s2_jax"]}
{"id": "C56", "title": "Analysis of batches of spin signals", "statement": "s2_to_wigner_subset recovers the coefficients of every signal of a batch, inverts wigner_subset_to_s2, returns 0 where l < |spin| or l < |m|, and treats items, spins and channels independently.", "quantifier": "every L>=1 (L>=2 on mwss), batch, list of spins below L, sampling mw or mwss", "why_tests_cant": "Exactness of a sampling theorem for every L and spin.", "anchors": ["s2fft/precompute_transforms/custom_ops.py:s2_to_wigner_subset", "s2fft/precompute_transforms/custom_ops.py:s2_to_wigner_subset_jax"]}
{"id": "C57", "title": "Subsets of Wigner coefficients of signals on the rotation group", "statement": "so3_to_wigner_subset returns the coefficients with n = -spin of each signal, for spins of absolute value below N; they are the planes the Fourier-Wigner forward transform returns.", "quantifier": "every 1<=N<=L, batch, list of spins, sampling mw or mwss", "why_tests_cant": "Orthogonality of the discrete Fourier transform over gamma for every N and spin; the documented limit |spin| <= N fails at N, which tests do not reach.", "anchors": ["s2fft/precompute_transforms/custom_ops.py:so3_to_wigner_subset", "s2fft/precompute_transforms/custom_ops.py:so3_to_wigner_subset_jax"]}
{"id": "C58", "title": "Gauss-Legendre weights from Newton's iteration", "statement": "For every L the Newton iteration of quad_weights_gl, started at cos(pi (i-1/4)/(L+1/2)), ends after at most 50 turns without division by zero; its points are the nodes of the L-point Gauss-Legendre rule up to 1e-14, and the weights returned are those of the rule times 2 pi/(2L-1) up to a relative error of (2L+1)^2 1e-14. The rule exists and is unique, with weights between 2/L^2 and 2; the nodes are exactly the fixed points of a step.", "quantifier": "every L>=1", "why_tests_cant": "Convergence from the chosen starting points for every L, to the right root each, is a statement about the zeros of all Legendre polynomials; tests try a few L.", "anchors": ["s2fft/utils/quadrature.py:quad_weights_gl", "s2fft/utils/quadrature_jax.py:quad_weights_gl"]}
{"id": "C59", "title": "JAX quadrature weights", "statement": "For every sampling other than gl the JAX weights (quad_weights and quad_weights_transform) equal the numpy weights for spin 0, with the same refusals; so mw and mwss integrate even trigonometric polynomials of degree < L exactly, and the weights of the transforms (mwss, dh) those of degree < 2L. The gl weights integrate degree < 2L up to (2L+1)^2 1e-14 times the area of the sphere times the largest value at the rings.", "quantifier": "every L>=1, sampling name, nside and polynomial", "why_tests_cant": "Tests compare the weights with the numpy ones or integrate random signals for a few L.", "anchors": ["s2fft/utils/quadrature_jax.py:quad_weights", "s2fft/utils/quadrature_jax.py:quad_weights_transform", "s2fft/utils/quadrature_jax.py:quad_weights_mw_theta_only", "s2fft/utils/quadrature_jax.py:quad_weights_mwss_theta_only", "s2fft/utils/quadrature_jax.py:quad_weight_dh_theta_only"]}
{"id": "C60", "title": "JAX Turok-Bucher slices", "statement": "turok_jax.compute_slice returns d^el_{m,mm}(beta) at index L-1+m for every |m|<=el, at the poles and at every angle 1e-10 or more away from them, although its loops run past the degree with infinite and NaN coefficients; no entry it returns is infinite or NaN; on the orders of the degree it agrees with the numpy version.", "quantifier": "every L, 0<=el<L, |mm|<=el and angle", "why_tests_cant": "The garbage computed past the degree triggers renormalisations and wraps around in the reindexing; that it never reaches the valid entries needs an invariant over all L, el, mm and angles.", "anchors": ["s2fft/recursions/turok_jax.py:compute_slice", "s2fft/recursions/turok_jax.py:_compute_quarter_slice", "s2fft/recursions/turok_jax.py:_north_pole", "s2fft/recursions/turok_jax.py:_south_pole", "s2fft/recursions/turok_jax.py:_el0", "s2fft/recursions/turok_jax.py:reindex"]}
{"id": "C61", "title": "Refined forward transform with precomputed kernels", "statement": "precompute forward with iter>0 returns what the refined reference transform returns; after iter corrections the error is the defect operator (identity minus forward after inverse) applied iter+1 times to the coefficients of the map; on mw, mwss, dh and gl it returns the coefficients of band-limited maps whatever iter is. With Price-McEwen kernels these hold at the angles used and tend to the refined reference transform as the angles tend to the colatitudes.", "quantifier": "every L, spin, scheme, reality flag, method numpy/jax, kernel given or built, iter>=0 and map", "why_tests_cant": "Tests compare the error for iter 0 and 3 on random healpix maps; the geometric law of the error and the agreement of kernel, reference and on-the-fly refinements hold for every iter only by induction.", "anchors": ["s2fft/precompute_transforms/spherical.py:forward", "s2fft/precompute_transforms/spherical.py:inverse", "s2fft/utils/iterative_refinement.py:forward_with_iterative_refinement"]}
{"id": "C62", "title": "jax_ssht spherical transforms", "statement": "With method jax_ssht, given a pyssht that synthesises listed coefficients and recovers them, spherical.inverse returns the samples of the signal with the given 2D coefficients (with the reality flag: of the real signal given by the orders m>=0), forward recovers the coefficients, the two are inverse to each other, both library backends give the same maps and the reference transform agrees. Unknown samplings, iterations and a missing package are errors.", "quantifier": "every L>=1, spin, scheme mw/mwss/dh/gl, spelling of its name, reality flag, backend and coefficients, and every library keeping the contract", "why_tests_cant": "Tests round trip random signals for a few L with the installed pyssht; that index reordering, scheme numbers and flags fit together holds for every L, spin and scheme only by proof.", "anchors": ["s2fft/transforms/c_backend_spherical.py:ssht_inverse", "s2fft/transforms/c_backend_spherical.py:ssht_forward", "s2fft/transforms/spherical.py:inverse", "s2fft/transforms/spherical.py:forward"]}
{"id": "C63", "title": "Gradients of the jax_ssht transforms", "statement": "The hand-written reverse-mode rules of ssht_inverse and ssht_forward are the transposes of the transforms: the gradient for a cotangent ct pairs with every input as ct pairs with the output, exactly on mw, mwss and dh, and on gl up to the relative accuracy of the weights; with the reality flag the real parts agree.", "quantifier": "every L, spin, scheme, backend, cotangent and input, and every library keeping the contract", "why_tests_cant": "Tests check gradients numerically at one even L and a few schemes; the rule for the reality flag is right for even L and wrong for every odd L>=3, which the tests miss.", "anchors": ["s2fft/transforms/c_backend_spherical.py:_ssht_inverse_bwd", "s2fft/transforms/c_backend_spherical.py:_ssht_forward_bwd"]}
{"id": "C64", "title": "jax_healpy spherical transforms and their gradients", "statement": "With method jax_healpy, given a healpy that integrates real maps and synthesises listed coefficients, spherical.inverse returns the samples of the real signal given by the orders m>=0 of the 2D coefficients, forward returns the refined reference transform of a real map (three iterations by default) with both signs of the order filled in, n iterations leave the error (I - map2alm alm2map)^(n+1), and the transposes JAX is given are the gradients of map2alm and alm2map. Shapes and dtypes told to JAX are those of the results; a missing package, a missing nside and other schemes are errors.", "quantifier": "every L>=1, nside>=1, number of iterations, real map, coefficients and cotangent, and every library keeping the contract; agreement with the reference transforms for 2 nside <= L", "why_tests_cant": "Tests compare with healpy for a few L and nside with random maps, and gradients numerically for one; that the packing of orders, the factors 1 and 2 of the transposes and the iterations fit for every L and nside is a proof by induction. That spin, L_lower and a reality flag that is off are silently ignored is never tested.", "anchors": ["s2fft/transforms/c_backend_spherical.py:healpy_forward", "s2fft/transforms/c_backend_spherical.py:healpy_inverse", "s2fft/transforms/c_backend_spherical.py:_healpy_map2alm_transpose", "s2fft/transforms/c_backend_spherical.py:_healpy_alm2map_transpose", "s2fft/transforms/spherical.py:forward", "s2fft/transforms/spherical.py:inverse"]}
{"id": "C65", "title": "jax_ssht Wigner transforms", "statement": "With method jax_ssht, given a pyssht that synthesises and recovers spin signals for the spins |n|<N, wigner.inverse returns the samples of the signal with the given Wigner coefficients, wigner.forward returns the Wigner coefficients of a sampled signal, a round trip returns the coefficients, and both agree with the reference Wigner transforms. Degrees below L_lower are neither removed nor normalised: a round trip multiplies them by 2 pi. A missing package and HEALPix are errors.", "quantifier": "every 1<=N<=L (no limit N<8), the schemes mw, mwss, dh and gl, both reality flags, every signal, and every library keeping the contract", "why_tests_cant": "Tests compare with so3 for a few L, N and one scheme with L_lower 0; they need the C library and never run with L_lower>0, where the result is wrong by 2 pi.", "anchors": ["s2fft/transforms/wigner.py:inverse_jax_ssht", "s2fft/transforms/wigner.py:forward_jax_ssht", "s2fft/transforms/wigner.py:_inverse_norm", "s2fft/transforms/wigner.py:_flmn_to_fban", "s2fft/transforms/wigner.py:_fban_to_flmn", "s2fft/transforms/wigner.py:_reality_and_norm"]}
{"id": "C66", "title": "Floating-point stability of the Risbo recursion", "statement": "In any arithmetic whose operations have relative error u and underflow error eta, the Risbo recursion (compute_full and compute_full_vectorised of numpy, compute_full of JAX) returns every Wigner d-function of degree l to within 200 u l (2l+3), with exact zeros beyond the degree, and the computed matrix differs from the exact one by no more than that in the operator norm. IEEE binary64 is such an arithmetic with u = 2^-53, so the error at degree l is at most 2.3e-14 l (2l+3) up to L = 2^21; in binary32, which JAX uses by default, the JAX routine stays within 1.2e-5 l (2l+3) up to L = 203: it grows with the square of the degree, never exponentially.", "quantifier": "every L with 200 u L (2L+3) <= 1 and 2 L eta <= u, every 0<=l<L, every angle the routine accepts: [0, np.pi] for compute_full, |beta| <= 5 for the vectorised and JAX routines, which do not check; every rounded arithmetic", "why_tests_cant": "Tests compare a few degrees at a few angles with another implementation; they cannot show that rounding errors are not amplified for any angle or degree, and near the poles or at large L an unstable recursion would fail only there.", "anchors": ["s2fft/recursions/risbo.py:4-120", "s2fft/recursions/risbo.py:123-229", "s2fft/recursions/risbo_jax.py:8-117"]}
{"id": "C67", "title": "Method jax_cuda on HEALPix", "statement": "With method=\"jax_cuda\" on HEALPix the inverse transform returns the samples of the signal with the given coefficients and the forward transform the quadrature-weighted sums, equal to method numpy, whatever transforms ran before in the process (plan cache), whether the jitted function was compiled already, and for nside = 1 as well; refinement agrees with numpy for maps of a real type. The ring transforms through the primitive equal those of numpy without the flag reality. Refuted: the forward ring transform leaves its argument unchanged (a complex map is replaced by its shifted spectra), iterative refinement of complex maps (the residual is taken from the overwritten map), an explicit norm argument, batching and differentiation.", "quantifier": "all L, nside, spin, L_lower, reality, precomps, dtypes, iter, all previous calls, all maps/coefficients, all runs", "why_tests_cant": "The tests for this path need a GPU and the compiled extension and are skipped elsewhere; they transform one fresh map at a time, so they see neither the effect of earlier plans nor that the caller's buffer is overwritten.", "anchors": ["s2fft/utils/healpix_ffts.py:549-678", "s2fft/utils/jax_primitive.py:8-48", "s2fft/transforms/spherical.py:211-347", "s2fft/transforms/spherical.py:591-755", "s2fft/utils/iterative_refinement.py:9-46", "lib/src/extensions.cc:90-100"]}
{"id": "C68", "title": "Several devices (spmd)", "statement": "With spmd=True the inverse transform on any number of devices that divides the number of rings returns the samples of the signal, the same array as without spmd, and its latitudinal step agrees for every input including errors; other numbers of devices raise TypeError (every even number on HEALPix, whose 4 nside - 1 rings are odd in number). On one device the forward transform agrees with that without spmd. Refuted: the forward transform on two or more devices, which fails for every input because the recursion inside the loop still uses all degrees while each device holds a block; with it the gradient of the inverse transform, which does have values.", "quantifier": "all numbers of devices, L, L_lower, spin, samplings, nside, reality, precomps, inputs", "why_tests_cant": "The test machines have one device, on which the two branches coincide; how blocks and closed-over arrays combine on several devices is never executed.", "anchors": ["s2fft/transforms/otf_recursions.py:358-394", "s2fft/transforms/otf_recursions.py:742-861", "s2fft/transforms/spherical.py:290-325", "s2fft/transforms/spherical.py:694-730"]}
{"id": "C69", "title": "Floating-point error of the precomputed inverse transform", "statement": "In any arithmetic with relative error u and underflow error eta, and with Fourier transforms of relative accuracy eps, the precomputed inverse transform built on the Risbo kernel (colatitudes, kernel, einsum in any order of summation, ring transforms) returns every sample to within (2130 u L(2L+3) + 20 eps) times the size of the signal (the sum of the coefficients' absolute values, each times the largest value of its harmonic), plus 51 L^2 eta: the error grows with the square of the band-limit. Kernel entries are within (1003 u L(2L+3) + 9 eps) of the normalisation and exactly zero outside the degrees. Gauss-Legendre rings add L times the error of their colatitudes. Instance: binary64 up to L = 2^20. Without rounding the same program returns the signal exactly.", "quantifier": "all band-limits with 2000 u L(2L+3) <= 1, all spins below L, mw/mwss/dh/gl, all coefficients, orders of summation, arithmetics and Fourier transforms within the bounds", "why_tests_cant": "Tests compare a few random signals at small L against a tolerance; no test bounds the error for every signal, band-limit and spin.", "anchors": ["s2fft/precompute_transforms/construct.py:17-161", "s2fft/precompute_transforms/spherical.py:87-149", "s2fft/sampling/s2_samples.py:195-293", "s2fft/recursions/risbo.py:10-210"]}
{"id": "C70", "title": "Floating-point error of the precomputed forward transform and of the round trip", "statement": "In any arithmetic with relative error u and underflow error eta, and with Fourier transforms of relative accuracy eps, on the Driscoll-Healy grid: each computed quadrature weight is within 81 u L^2 of an even share of 8 pi; the forward transform of any map is the exact rule applied to that map to within (4400 u L(2L+3) + 37 eps) of the mean absolute value times 8 pi and the largest value of the harmonic, and exactly zero outside the degrees; the coefficients of a band-limited signal are recovered from a map within d of its samples; inverse then forward returns every coefficient to within (15200 u L(2L+3) + 140 eps) of the size of the signal times 8 pi and the largest value of the harmonic. On Gauss-Legendre rings the same holds for analysis and round trip, with the errors of the given colatitudes and weights entering once and 4 pi in place of 8 pi. Instances: both round trips in binary64 up to L = 2^20. Without rounding the same program returns the coefficients exactly.", "quantifier": "all band-limits with 2000 u L(2L+3) <= 1 and 4 L^2 eta <= u (4 L^3 eta <= u on Gauss-Legendre rings), all spins below L, all maps and coefficients, orders of summation, arithmetics and Fourier transforms within the bounds", "why_tests_cant": "Round-trip tests use random coefficients at a few small band-limits and one tolerance; no test bounds the error for every signal, spin and band-limit.", "anchors": ["s2fft/utils/quadrature.py:7-50", "s2fft/utils/quadrature.py:164-201", "s2fft/precompute_transforms/construct.py:17-161", "s2fft/precompute_transforms/spherical.py:314-380"]}
{"id": "C71", "title": "Floating-point error of the resampling between the MW and MWSS grids", "statement": "In any arithmetic with relative error u <= 1/1000 and underflow error eta, and with Fourier transforms of relative accuracy eps <= 1/100 in the Euclidean norm, for every map, band-limited or not: the computed periodic extension of an mw map is the exact one to within (4 eps + 31 u) of the norm of the map, the computed conversion from mw to mwss to within (22 eps + 227 u), the computed doubling of the mwss rings to within (5 eps + 24 u); the constants do not depend on the band-limit. A map within d of the samples of a band-limited signal reaches the doubled mwss grid, on which the forward transform integrates, within 10 d + (68 eps + 613 u) of the norm of the samples. Instance: binary64 up to L = 2^20, relative error 7.6e-13. Without rounding both steps return the samples exactly.", "quantifier": "all band-limits, spins, maps, arithmetics and Fourier transforms within the bounds", "why_tests_cant": "Tests resample a few random band-limited signals at small L and compare against one tolerance; no test shows that the error does not grow with the band-limit, nor covers maps that are not band-limited.", "anchors": ["s2fft/utils/resampling.py:6-61", "s2fft/utils/resampling.py:64-160", "s2fft/utils/resampling.py:248-355"]}
{"id": "C72", "title": "Floating-point error of the precomputed forward transform and of the round trip on the MW and MWSS grids", "statement": "In any arithmetic with relative error u and underflow error eta, with 2000 u L(2L+3) <= 1, and with Fourier transforms of accuracy eps <= 1/100: the computed weights of the doubled mwss rule differ from the exact ones by at most (15 u + 1.4 eps) of a share 9 pi / (2 L^2); the forward transform of any mw or mwss map returns the exact rule applied to the exactly resampled map to within (31700 u L(2L+3) + 615 eps) of the root mean square of the map, times the size of the harmonic and 27 pi; from a map within d of a band-limited signal it recovers the coefficients to within (4550 u L(2L+3) + 291 eps) of the size of the signal plus 36 d; inverse followed by forward returns the coefficients to within (81000 u L(2L+3) + 1011 eps). Coefficients with l < |m| or l < |spin| are exactly zero. Instance: binary64 up to L = 2^20.", "quantifier": "all band-limits, spins with |spin| < L, maps, coefficients, summation orders, arithmetics and Fourier transforms within the bounds", "why_tests_cant": "Tests check round trips at a few small band-limits against one tolerance; they show neither how the error grows with the band-limit nor that the two resampling steps and the signed quadrature weights do not amplify it.", "anchors": ["s2fft/precompute_transforms/spherical.py:314-380", "s2fft/precompute_transforms/construct.py:17-161", "s2fft/utils/quadrature.py:7-50", "s2fft/utils/quadrature.py:238-320", "s2fft/utils/resampling.py:64-355"]}
{"id": "C73", "title": "Price-McEwen slices of all orders", "statement": "compute_all_slices_jax returns 2L-1 rows of which row L-1+m holds d^el_{m,-spin} for every degree el >= |spin| and every angle at which the recursion is regular; no entry at an angle inside (0, pi) is infinite. The NumPy function compute_all_slices returns the same values when given the coefficients of generate_precomputes with two more arrays inserted. Refuted: the NumPy function can be called as documented (it raises for every argument); the documented row index L-1-m.", "quantifier": "every band-limit L >= 2, spin below L, list of angles, sampling name and choice of the two unread arrays", "why_tests_cant": "The NumPy function has no test at all, and tests of the JAX one compare a few angles at small L with another recursion.", "anchors": ["s2fft/recursions/price_mcewen.py:377-498", "s2fft/recursions/price_mcewen.py:501-643"]}
{"id": "C74", "title": "Floating-point error of the precomputed inverse Wigner transform", "statement": "In any arithmetic with relative error u and underflow error eta, and with a two-dimensional Fourier transform of relative accuracy eps, the precomputed inverse Wigner transform on the rotation group with the direct Risbo kernel (colatitudes, kernel, normalisation, einsum in any order of summation, shifts and ifft2) returns every sample to within (500 u L(2L+3) + eps) times the size of the signal (the sum of the coefficients' absolute values, each times (2l+1)/(8 pi^2)), plus 51 N L^2 eta. Kernel entries are within 233 u L(2L+3) of the normalisation and exactly zero outside the degrees. Gauss-Legendre rings add L times the error of their colatitudes. With the kernel of mode fft (the Fourier expansion of the d-functions from their values at pi/2, a real Fourier transform and powers of i of accuracy eps) the bounds are 963 u L(2L+3) + 12 eps for the kernel and 2030 u L(2L+3) + 27 eps for the transform. Instances: binary64 up to L = 2^20. Without rounding both programs return the signal exactly.", "quantifier": "all band-limits with 2000 u L(2L+3) <= 1, all directional band-limits 1 <= N <= L, mw/mwss/dh/gl, all coefficients, orders of summation, arithmetics and Fourier transforms within the bounds", "why_tests_cant": "Tests compare a few random signals at small L and N against a tolerance; no test bounds the error for every signal and band-limit.", "anchors": ["s2fft/precompute_transforms/construct.py:332-468", "s2fft/precompute_transforms/wigner.py:80-138", "s2fft/recursions/risbo.py:107-210"]}
{"id": "C75", "title": "Floating-point error of the precomputed forward Wigner transform", "statement": "In any arithmetic with relative error u and underflow error eta, and with Fourier transforms of relative accuracy eps, the precomputed forward Wigner transform on Driscoll-Healy rings (weighted kernel of wigner_kernel, two Fourier transforms, shifts, einsum in any order of summation) returns for any samples the coefficients of the exact quadrature rule to within (690 u L(2L+3) + 3 eps) times 16 pi^2 times the mean absolute value of the samples, plus 24 L eta, and exactly zero outside the degrees. Samples within d of a band-limited signal give its coefficients to within 16 pi^2 ((690 u L(2L+3) + 3 eps)(size + d) + d + L eta). Inverse then forward transform returns the coefficients to within 16 pi^2 ((1440 u L(2L+3) + 5 eps) size + 78 N L^2 eta). With the kernels of mode fft the constants are 2320, 27 and 9500, 120, 181. Gauss-Legendre rings with colatitudes off by delta and weights off by a relative dw: 8 pi^2 times 490 u L(2L+3) + 3 eps + 3 L delta + 5 dw, and 1500, 6, 6, 5 for the round trip. Instances: binary64 up to L = 2^20. Without rounding the program returns the coefficients exactly.", "quantifier": "all band-limits with 2000 u L(2L+3) <= 1, all directional band-limits 1 <= N <= L, dh (both modes) and gl (mode direct), all samples, coefficients, orders of summation, arithmetics and Fourier transforms within the bounds", "why_tests_cant": "Tests run the round trip for a few random signals at small L and N against a tolerance; no test bounds the error for every signal and band-limit.", "anchors": ["s2fft/precompute_transforms/construct.py:332-468", "s2fft/precompute_transforms/wigner.py:291-370", "s2fft/recursions/risbo.py:107-210", "s2fft/utils/quadrature.py:53-201"]}
{"id": "C76", "title": "Floating-point error of the precomputed forward Wigner transform on mw and mwss", "statement": "In any arithmetic with relative error u and underflow error eta, and with Fourier transforms of relative accuracy eps, the precomputed forward Wigner transform on mw and mwss rings (every gamma plane resampled to the doubled mwss grid with its own spin, weighted kernel on the doubled rings, two Fourier transforms, einsum in any order) recovers, from samples within d of a band-limited signal, each of its coefficients to within 54 pi^2 ((617 u L(2L+3) + 111 eps) size + 14 d + 253 L eta), and exact zeros outside the degrees. Inverse then forward transform: 54 pi^2 ((7519 u L(2L+3) + 125 eps) size + 967 N L^2 eta). With the kernels of mode fft the constants are 2166, 204, 23, 432 and 48764, 807, 1605. Instances: binary64 up to L = 2^20. Without rounding the program returns the coefficients exactly.", "quantifier": "all band-limits with 2000 u L(2L+3) <= 1, all directional band-limits 2 <= N <= L (N = 1 raises, see C54), mw and mwss, both modes of the kernel, all band-limited signals, sample errors, orders of summation, arithmetics and Fourier transforms within the bounds", "why_tests_cant": "Tests run the round trip for a few random signals at small L and N against a tolerance; no test bounds the error that the chain of resampling, quadrature and summation can accumulate for every signal and band-limit.", "anchors": ["s2fft/precompute_transforms/construct.py:332-468", "s2fft/precompute_transforms/wigner.py:291-370", "s2fft/utils/resampling.py:9-327", "s2fft/utils/quadrature.py:238-262"]}
{"id": "C77", "title": "Floating-point error of the precomputed transforms of real signals", "statement": "With reality=True (spin 0) the kernel is, entry by entry, the half of non-negative orders of the full kernel. In any arithmetic with relative error u and underflow error eta, and with Fourier transforms of relative accuracy eps, the precomputed inverse transform of real signals (irfft) on mw, mwss and dh rings returns each sample to within (2130 u L(2L+3) + 20 eps) size + 51 L^2 eta of the real part of the sum of the harmonics whose negative orders are given by the positive ones (gl: an additional L delta). The forward transform (real parts of the samples, rfft, einsum over half of the orders, conjugated negative orders) recovers, from samples within d of a real band-limited signal, every coefficient, of positive and of negative order, to within sqrt((2l+1)/(4 pi)) 8 pi ((4420 u L(2L+3) + 37 eps)(size + d) + d + 18 L eta) on dh; 27 pi, 4570, 291, 37 d and 700 on mw and mwss; 4 pi, 4060, 37 and 4 L delta + 8 dw on gl, and exact zeros outside the degrees. Inverse then forward: 15200, 140, 277 L^2 eta (dh) and 83200, 1031, 2600 L^2 eta (mw, mwss). Instance: binary64 up to L = 2^20. Without rounding both directions are exact.", "quantifier": "all band-limits with 2000 u L(2L+3) <= 1, mw, mwss, dh and gl, all coefficients of real signals, sample errors, orders of summation, arithmetics and Fourier transforms within the bounds", "why_tests_cant": "Tests compare the real-signal transforms with the complex ones for a few random signals at small L against a tolerance; no test bounds the error of the half-spectrum path for every signal and band-limit.", "anchors": ["s2fft/precompute_transforms/construct.py:17-161", "s2fft/precompute_transforms/spherical.py:87-149", "s2fft/precompute_transforms/spherical.py:314-380", "s2fft/utils/resampling.py:9-327"]}
{"id": "C78", "title": "Floating-point error of the precomputed inverse Wigner transform of real signals", "statement": "With reality=True the kernels of both modes hold, entry by entry, the planes n >= 0 of the full kernels. In any arithmetic with relative error u and underflow error eta, with Fourier transforms of relative accuracy eps, the precomputed inverse Wigner transform (einsum over the planes n >= 0, ifft along the longitudes, irfft along gamma) of coefficients with the symmetry of a real signal returns every sample to within (520 u L(2L+3) + 3 eps) size + 53 N L^2 eta of the signal with the direct kernel on mw, mwss and dh, (2140 u L(2L+3) + 29 eps) with the fft kernel, and an additional L delta on gl; planes n < 0 of the array are never read. Instances for both kernels: binary64 up to L = 2^20. Without rounding both modes return the signal itself.", "quantifier": "all band-limits 1 <= N <= L with 2000 u L(2L+3) <= 1, mw, mwss, dh and gl, all coefficients of real signals, orders of summation, arithmetics and Fourier transforms within the bounds", "why_tests_cant": "Tests compare the real-signal Wigner transform with the complex one for a few random signals at small L and N against a tolerance; no test bounds the error of the half-spectrum path for every signal and band-limit, nor shows that the other planes are ignored.", "anchors": ["s2fft/precompute_transforms/construct.py:332-468", "s2fft/precompute_transforms/wigner.py:80-138"]}
{"id": "C79", "title": "Floating-point error of the precomputed forward Wigner transform of real signals and of the round trip", "statement": "With reality=True, in any arithmetic with relative error u and underflow error eta, with Fourier transforms of relative accuracy eps, the precomputed forward Wigner transform (rfft of the real parts along gamma, fft along the longitudes, einsum with the half kernel, planes n < 0 filled in by conjugation and signs) of samples within d of a real band-limited signal returns every coefficient, at positive and negative n, to within 16 pi^2 ((710 u L(2L+3) + 3 eps)(size + d) + d + 2 L eta) on dh with the direct kernel, (2340, 27) with the fft kernel, and 8 pi^2 ((510 u L(2L+3) + 3 eps + 3 L delta + 5 dw)(size + d) + d + 2 L eta) on gl, and exactly zero where the d-function does not exist. The imaginary parts of the samples are never read. Inverse then forward transform on dh returns the coefficients to within 16 pi^2 ((1530 u L(2L+3) + 8 eps) size + 82 N L^2 eta), (10400, 125, 189) with the fft kernels. Instances for both kernels: binary64 up to L = 2^20. Without rounding the coefficients themselves are returned.", "quantifier": "all band-limits 1 <= N <= L with 2000 u L(2L+3) <= 1, dh and gl, all real band-limited signals and samples near them, orders of summation, arithmetics and Fourier transforms within the bounds", "why_tests_cant": "Tests run the real-signal round trip for a few random signals at small L and N against a tolerance; they cannot bound its error for every signal and band-limit, nor separate the error of the planes that are computed from that of the planes filled in by symmetry.", "anchors": ["s2fft/precompute_transforms/construct.py:332-468", "s2fft/precompute_transforms/wigner.py:291-370"]}
{"id": "C80", "title": "Floating-point error of the precomputed forward Wigner transform of real signals on mw and mwss and of the round trip", "statement": "With reality=True on mw and mwss, in any arithmetic with relative error u and underflow error eta, with Fourier transforms of relative accuracy eps, the precomputed forward Wigner transform (rfft of the real parts along gamma, the planes n >= 0 resampled to the mwss grid of band-limit 2L, fft along the longitudes, einsum with the half kernel, planes n < 0 filled in by symmetry) of samples within d of a real band-limited signal returns every coefficient, at positive and negative n, to within 54 pi^2 ((627 u L(2L+3) + 111 eps) size + 15 d + 254 L eta) with the direct kernel, (2176, 204, 24, 433) with the fft kernel, and exactly zero where the d-function does not exist. Inverse then forward transform returns the coefficients to within 54 pi^2 ((8427 u L(2L+3) + 156 eps) size + 1049 N L^2 eta), (53536, 900, 1705) with the fft kernels. Instances for both kernels: binary64 up to L = 2^20. Without rounding the coefficients themselves are returned.", "quantifier": "all band-limits 2 <= N <= L with 2000 u L(2L+3) <= 1, mw and mwss, all real band-limited signals and samples near them, orders of summation, arithmetics and Fourier transforms with eps <= 1/100", "why_tests_cant": "Tests run the real-signal round trip for a few random signals at small L and N against a tolerance; they cannot bound the error of the resampling, of the half kernel and of the filled-in planes for every signal and band-limit.", "anchors": ["s2fft/precompute_transforms/construct.py:332-468", "s2fft/precompute_transforms/wigner.py:291-370", "s2fft/utils/resampling.py:8-155"]}
