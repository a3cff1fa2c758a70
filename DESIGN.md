# Formal model of s2fft: design

## Scope and method

The model is written in Rocq (Coq 8.16.1) as total Gallina functions that mirror the
Python/C++ functions branch by branch. Every model definition carries a comment with the
file and lines in /repo it models. Exceptions are values (`result`). Array code is modelled by
functions on integer indices together with explicit shapes. Loops are folds over the same
ranges as the code. In-place updates are state passing.

Floating point is modelled by exact arithmetic: Coq's classical reals `R` and Coquelicot's
complex numbers `C`. Round-off, overflow and NaN propagation are therefore outside of the
model unless a theorem says otherwise; C66, C69-C72 and C74-C80 model round-off (of the Risbo recursion, of the precomputed transforms built on it and of the resampling) explicitly. FFT routines of numpy/jax are modelled by the sums that
define them.

Layout of `rocq/theories`:

- `Lib/` general facts (integer ranges, finite sums, complex exponentials).
- `Model/` the model, no proofs.
- `Spec/` small, independent specifications (index sets, Wigner's formula, spherical harmonics).
- `Proofs/` lemmas.
- `Properties/` the property theorems, each closed by `exact`, with `Print Assumptions`
  and an `Example` that shows a concrete case meeting the hypotheses.

## Properties: what is modelled and how it is proved

- **C01 Harmonic index map is a bijection.** Model elm2ind / ind2elm over Z (integer square root for np.floor(np.sqrt(ind))). Prove injectivity, surjectivity and both inverses by nonlinear integer arithmetic.
- **C02 2D <-> 1D coefficient layouts are lossless.** Model both loop functions as folds over the loop ranges writing into function-arrays. Prove by a loop-invariant lemma for disjoint writes.
- **C03 Vectorised re-indexing equals loop re-indexing.** Model the gather/scatter form of each *_fast function. Prove pointwise equality with the loop models.
- **C04 healpy layout is a bijection and round-trips for real signals.** Model hp_getidx and the two healpy loops. Bijection by arithmetic, round trips by the loop lemmas, exact characterisation of surviving arrays.
- **C05 3D <-> 1D Wigner coefficient layouts are lossless.** As C01/C02 with the block offset (N-1+n)L^2.
- **C06 Shapes agree across the API.** Model sampling names as strings with lower(), shapes as result values (ValueError explicit). Case analysis plus summation of ring lengths by induction on nside.
- **C07 HEALPix rings partition the pixels.** Model nphi_ring with its error branch; ring offset as running sum; induction on the ring number.
- **C08 Colatitude grids are ordered and symmetric.** Model t2theta/_t2theta_healpix over Coq reals (exact arithmetic); monotonicity from acos/lra.
- **C09 HEALPix ring pixel longitudes and phase shift.** Model p2phi_ring and both phase-shift versions over R/C; prove equality with exp(i m phi_0).
- **C10 hp_ang2pix returns a valid pixel and inverts the ring geometry.** Model _hp_zphi2pix over R with floor; range by case analysis on regions; pixel-centre identity by exact floor computations.
- **C11 HEALPix inverse FFT sums all orders on each ring (aliasing handled by folding).** Model folding as the two loops with in-place +=, ring FFT as its defining sum; prove by regrouping a 2L-term sum by residues mod nphi.
- **C12 HEALPix forward FFT is the periodic extension of the ring DFT.** Model extension (NumPy slices and JAX gather); prove against the DFT sum by periodicity of exp.
- **C13 HEALPix FFT routines do not modify their inputs and are repeatable.** Model NumPy view semantics as state passing (the caller's array after the call is an output of the model). Expected refuted for NumPy: fold writes through a view.
- **C14 CUDA ring kernels compute the same folding/extension as the Python code.** Model device integer arithmetic with C truncated remainder; prove equality with the Python folding/extension model for each thread; in-bounds lemmas.
- **C15 CUDA plan cache returns the plan for the requested descriptor after any history.** State machine: cache map, executors with growing vectors, ops build/forward/backward. Invariant by induction over op lists. Expected: correctness proved, 'no further plans' refuted (double initialisation leaks).
- **C16 MW to MWSS resampling is exact for band-limited signals.** Model FFT steps as defining sums; exactness by DFT inversion on trigonometric polynomials.
- **C17 Upsampling in theta is exact and undone by downsampling.** As C16 with zero padding; the Nyquist column needs care.
- **C18 Periodic extension continues the signal on the sphere.** Model all extension versions; direct computation of parities.
- **C19 Quadrature weights integrate band-limited functions exactly.** Model mw_weights, ifft-based weight construction, DH series. Exactness by DFT orthogonality and telescoping sums; integrals through Coquelicot RInt.
- **C20 FFT conjugation identity used by the JAX paths.** Direct from the defining sums.
- **C21 All reference inverse methods agree.** Model the four methods; equality by exchanging finite sums and DFT definitions.
- **C22 All reference forward methods agree.** As C21.
- **C23 Inverse transform synthesises spin spherical harmonics.** Spec = explicit Wigner formula. Combine C28 with C21.
- **C24 Round trip on MW and MWSS is exact.** Flagship: C23 + C16/C17 + C19 + orthogonality of Wigner d (ladder operators, Coquelicot integrals).
- **C25 Round trip on DH is exact.** As C24 with DH exactness.
- **C26 Round trip on GL is exact given exact Gauss-Legendre nodes.** As C24 with a hypothesis on nodes.
- **C27 Risbo recursion yields the Wigner d-matrices.** Model the two half-steps on arrays; relate to generating polynomials (c x+s)^i(-s x+c)^j; induction on el.
- **C28 Turok recursion yields slices of the Wigner d-matrices.** Model the recursion including renormalisation and pole branches; prove via three-term recurrence (rotated Jz) of the explicit formula.
- **C29 Trapani-Navaza recursion yields the Wigner d-matrices at pi/2.** Model the three implementations; prove via the recurrences at pi/2 and the symmetries of d.
- **C30 Transforms are linear.** Read off the closed form proved for each transform (reference, on the fly, precomputed; sphere and SO(3)): a finite sum linear in the input, over R when the reality flag conjugates or takes real parts.
- **C31 Reality flag is sound.** Symmetry d_{-m,-n}=(-1)^{m-n}d_{mn} with DFT conjugation.
- **C32 Degrees below the lower band-limit or the spin neither contribute nor appear.** Models expose which entries are read; refutation witnesses where a backend reads/returns them.
- **C33 Arguments are validated before computing.** Dispatch modelled with exceptions as values; case analysis over strings.
- **C34 Wigner transform round trip is exact.** n-sum of spherical round trips + DFT in gamma.
- **C35 Wigner reality symmetry.** As C31 in three indices.
- **C36 Precomputed-kernel transforms equal the on-the-fly transforms.** Kernel = table of Wigner d entries times weights; contraction equals sov_fft. For the Price-McEwen kernels of JAX: equality at given regular angles, agreement up to eps at angles near the colatitudes.
- **C37 Fourier-Wigner decomposition.** Composition law of the generating polynomial action (rotation by pi/2 about x diagonalises Jy).
- **C38 Iterative refinement converges to the exact coefficients.** Abstract commutative-group-with-linear-maps section; induction on n_iter.
- **C39 Generated signals are admissible.** Random draws as an arbitrary stream; array writes as folds.
- **C40 Coefficient rotation is unitary.** From C27 (orthogonality of d).
- **C41 On-the-fly (Price-McEwen) recursion yields the Wigner d-functions.** Model the recursion and log renormalisation over R; invariant relating renormalised values to d.
- **C42 Torch wrapper preserves the structure and the values of pytrees.** Pytree as an inductive type (rose tree); structural induction.
- **C43 CUDA status codes distinguish failure from success.** Codes as Z with 64-bit long; expected refuted.
- **C44 Power is preserved (Parseval).** From the orthogonality relations used in C24.

- **C45 Steps registered as derivatives are transposes.** Both JAX steps as matrices of Wigner d entries (C41); exchange of finite sums.
- **C46 / C47 / C48 On-the-fly transforms.** Model the numpy and JAX transforms around the latitudinal steps of C41 with an arbitrary angle function; exact statements at the angles used, limits (eps-delta, uniform in the method) towards the colatitudes of the scheme, round trip through C24-C26.
- **C49 / C50 / C51 On-the-fly Wigner transforms.** Loop (numpy) and vmap (JAX) over the spins of the C46/C47 transforms between transforms in gamma; per-spin exact statements are assembled by loop invariants, limits and the round trip go through C34.
- **C52 / C53 / C54 Precomputed Wigner transforms.** Kernels with four axes built by Risbo planes or by Fourier series; contraction over the degrees (or rings) equals, plane by plane, the spherical kernel transforms of C36 with spin -n; then sampling in gamma as in C34.
- **C55 / C56 / C57 Batches of spin signals.** Arrays with five axes; each item, spin and channel follows the steps of the Fourier-Wigner transforms of C37, so one-signal lemmas are lifted axis by axis; the transform over gamma is a discrete Fourier transform evaluated at the requested spins.
- **C58 Gauss-Legendre weights.** Model of the Newton iteration with a bound on the turns and errors for divisions by zero. Legendre polynomials, orthogonality and roots from scratch (`Proofs/Legendre.v`); gaps between the zeros by Sturm comparison (`Proofs/LegendreZeros.v`), hence starting points right of the zeros and close to them; monotone convergence from the right by the sign of the second derivative (`Proofs/NewtonConv.v`).
- **C59 JAX quadrature weights.** Own model of `quadrature_jax.py` (`Model/QuadratureJax.v`), equality with the numpy weights at spin 0, transfer of C19; error of the gl rule from C58 with the triangle inequality.
- **C60 JAX Turok-Bucher slices.** Model in `Model/TurokJax.v` over numbers with infinities and NaN (`Lib/Ext.v`) and with JAX indexing (clamped reads, dropped writes). Loop invariant on the entries of the degree, whatever the others hold; reuse of the recursion proved for C28.
- **C61 Refined transform with precomputed kernels.** Refinement (C38) around the kernel transforms of C36; equal step functions give equal refinements, step functions that tend to each other give refinements that tend to each other, by induction on the number of corrections.
- **C62 / C63 Front end of pyssht.** pyssht is a record of arbitrary functions; what it is relied on for is a contract (`Spec/CBackendSpec.v`): synthesis of listed coefficients, recovery of band-limited signals, the weighted sums of dh and gl, adjointness of the adjoint functions on mw and mwss. The theorems hold for every library keeping it; a library made of the reference sums shows that the contract can be kept (`Proofs/CBackendLib.v`). Gradients are stated as transposes with respect to the pairing JAX uses.
- **C64 Front end of healpy.** healpy is a record of two functions with a contract: map2alm of a real map is the mean over the pixels times the conjugate harmonics, alm2map synthesises the real signal of the listed orders m >= 0. Refinement is related step by step to that of the reference transform (a relation between the healpy list and the 2D array); the error law is that of C38 for the two library functions. Transposes are checked with the pairing JAX uses. Finding: spin, L_lower and a reality flag that is off are ignored (`C64_ignored_refuted`).
- **C65 Front end of pyssht for Wigner transforms.** The loops over n with `.at[n].add` on zeros are shown equal to assignments, then the lemmas on the axis of gamma of C52 apply, with the contract of C62 for every spin -n. Degrees below L_lower: the exact factors are carried through, so that the 2 pi of a round trip is a theorem.
- **C66 Risbo in floating point.** Every operation of `risbo.py` becomes an operation of a record `arith` about which only error bounds are assumed (`Spec/RoundingSpec.v`); Flocq's round-to-nearest in binary64 is an instance. The loops are related to the same loops with exact additions and to a count of the additions into each entry, which bounds the local error of a half-step by 200 u per entry. The half-step is an isometric embedding of both index spaces followed by a rotation, so it does not increase the operator norm of the error matrix (Cauchy-Schwarz on the bilinear form); the local errors therefore only add up. The JAX routine (whole-matrix products, one division at the end) is treated the same way after scaling, with the same constant; binary32 is a second instance.
- **C67 Method jax_cuda.** The primitive is a relation between the plan cache, the operand buffer, the output buffer before and after; the shape rule, the normalisation flag and the lowering are functions. The CUDA code is that of C14 and C15; here it is joined to the JAX transforms on both sides. Agreement with numpy follows from the common specification (samples of the signal, weighted sums); refinement by induction on the rounds with equality of arrays as the invariant. For complex maps the overwritten buffer is followed through the refinement, which refutes it with a map that is one pixel.
- **C68 Several devices (spmd).** The loop of each half is split off the head (same definitions, proved equal to Model/OTF.v) and run per block of rings (inverse) or degrees (forward), with the traced shapes checked first as JAX does. A block of the state is a restriction of planes and rows, an invariant of every step, so the joined blocks equal the undivided result; full transforms follow from the specifications of C46 and C47. On two or more devices the forward step is refuted for every input by the shape check.
- **C69 Precomputed inverse in floating point.** Model/PrecomputeFloat.v repeats the inverse half of `construct.py` and `precompute_transforms/spherical.py` with the record `arith` of C66; numpy's transforms and the order in which einsum adds are arguments with an accuracy assumed of them (Spec/PrecomputeFloatSpec.v). On Gauss-Legendre rings the kernel is C66 at each ring. On equidistant rings it is a Fourier sum of products of two columns of the matrix at the rounded pi/2: column errors are bounded in the 2-norm by the operator norm of C66 plus a Lipschitz bound in the angle, and Cauchy-Schwarz bounds the sums of products, so no factor L is lost. Sums are bounded by induction on the tree of partial sums. The exact colatitudes are reached by the Lipschitz bound.
- **C70 Precomputed forward in floating point.** Model/ForwardFloat.v adds the weights, the weighted kernel and `forward_transform` for `dh` and `gl`. The Driscoll-Healy weights are bounded by induction (sin x times the partial Fourier sum of the square wave lies in [0, 1]), so errors are relative to an even share of the rule. The sum over rings is the same tree induction as in C69 (`dot_err`); the kernel moves from the rounded to the exact colatitudes by the Lipschitz bound. Exactness of the rule (C19) then gives recovery of coefficients, and with C69 the round trip. On Gauss-Legendre rings the weights are kept away from zero by |P_n| <= 1 (`Proofs/GaussBounds.v`).
- **C71 Resampling in floating point.** Model/ResamplingFloat.v repeats resampling.py with the record `arith` of C66; the four numpy transforms are arguments with a relative accuracy in the Euclidean norm assumed of them (Spec/ResamplingFloatSpec.v). Errors are carried by one relation between computed and exact arrays (`rel`: same shape, norm of the exact array, distance): Fourier transforms scale both by a known factor (Parseval), slices and paddings keep them, mirrored rows grow them by at most 3/2, products with phases of modulus 1 add a multiple of u. Composing the steps gives bounds that do not depend on L, against the exact model of C16-C18.
- **C72 Precomputed forward on mw and mwss in floating point.** Model/ForwardMWFloat.v adds the mwss weights (one FFT of the coefficients `mw_weights`), the kernel on the doubled mwss rings and `forward_transform` with the two resampling steps. The weights are bounded through the sum of |mw_weights| (at most 9); the resampling errors are those of C71; sums of absolute values are bounded by Euclidean norms, so the area 4 pi becomes 27 pi in the bounds. The round trip composes the error with that of the inverse transform (C69).
- **C73 Slices of all orders.** `Model/PMSlices.v` holds both functions over the reals with infinities and NaN; the loop invariant of C41 is reused, with one more invariant that no infinity is produced. The list of coefficients is a sum type of five or seven arrays, so that the wrong unpacking of the NumPy function is a value of the model.
- **C74 Precomputed inverse Wigner in floating point.** Model/WignerFloat.v repeats both modes of `wigner_kernel` and `inverse_transform` of `precompute_transforms/wigner.py` with the record `arith` of C66; `ifft2` and the order in which einsum adds are arguments (Spec/WignerFloatSpec.v). The kernel is C66 at each ring times a factor with its own bound; sums are those of C69; the two shifts are permutations of the residues, so the absolute sums entering the accuracy of `ifft2` are unchanged; the exact colatitudes are reached by the Lipschitz bound. The fft mode follows C69: column errors of the recursion at the rounded pi/2, four complex products per coefficient, the accuracy of `irfft`, and the half sum of the Fourier expansion.
- **C75 Precomputed forward Wigner in floating point.** Model/WignerForwardFloat.v repeats the weighted kernel of `wigner_kernel` (`forward=True`) and `forward_transform` of `precompute_transforms/wigner.py` for `dh` and `gl`. The weights are those of C70, times 2 pi/(2N-1); the two Fourier transforms enter by their accuracy on rows of absolute values (`ring_abs3`), the sum over rings as in C70. Comparison is with `wigner_sum`, the exact rule of C50 and C54; the exactness of the rule gives the bounds for band-limited signals and, with C74, the round trip.
- **C76 Precomputed forward Wigner on mw and mwss in floating point.** Model/WignerForwardMWFloat.v composes the rounded resampling of C71 (one call per gamma plane, with the spin the code passes) with the doubled-grid kernel and the steps of C75. The gamma planes of a band-limited signal are band-limited spin signals, so C71 bounds the resampled planes; the mwss rule on the doubled grid is exact for them, and the mean-square bound of C72 carries the errors through the rule. C74 gives the round trip.
- **C77 Precomputed transforms of real signals in floating point.** Model/RealFloat.v is the reality=True branch: half kernel, irfft, rfft of the real parts, einsum over the orders 0..L-1, conjugation. Each entry of the half kernel is an entry of the full one, so the kernel bounds of C69-C72 apply; an rfft within eps of the exact half spectrum gives the orders of the exact quadrature, and the negative orders inherit the bound because conjugation and signs are exact. hermitian coefficients are those of a real signal (Spec/SphericalSpec.v).
- **C78 Precomputed inverse Wigner transform of real signals in floating point.** Model/WignerRealFloat.v is the reality=True branch: half kernels of both modes, einsum over the planes n >= 0, ifft along the longitudes, irfft along gamma. The half kernels are planes of the full ones, so the kernel bounds of C74 apply; the symmetry of the coefficients turns the sum over all n into the real part of the sum over n >= 0 with weights 1, 2, 2, ..., which is what irfft computes; the error of the two Fourier transforms is propagated plane by plane.
- **C79 Precomputed forward Wigner transform of real signals in floating point.** Model/WignerRealForwardFloat.v is the reality=True branch on dh and gl: rfft of the real parts, half kernel, planes n < 0 filled in by conjugation and two multiplications with signs. From the rfft a complex transform is built that agrees with it on real data and is as accurate, so the planes n >= 0 are, entry by entry, those of the full transform of C75 applied to the real parts; the planes n < 0 add the error of the two multiplications. Composed with C78 for the round trip on dh.
- **C80 The same on mw and mwss.** Model/WignerRealForwardMWFloat.v: the planes n >= 0 are resampled to the mwss grid of band-limit 2L before the longitudinal transform. Entry by entry they are the planes of the full transform of C76 applied to the real parts (the resampling treats each plane on its own), and the fill-in of the planes n < 0 adds the error of two multiplications. Composed with C78 for the round trip.

## Trusted base

- Coq's kernel.
- Standard-library axioms behind `R` (listed by `Print Assumptions` under each theorem):
  `ClassicalDedekindReals.sig_forall_dec`, `ClassicalDedekindReals.sig_not_dec`,
  `FunctionalExtensionality.functional_extensionality_dep`, and `Classical_Prop.classic`
  where Coquelicot's integrals are used.
- The reading of the source: the model is tied to the code by inspection only.

## What is not modelled

Every function of the package not named here has a definition in `Model/` (inventory at the end).

- The C libraries pyssht and healpy themselves: records of arbitrary functions with contracts (C62, C64, C65).
- The transport of arrays between devices under `spmd` (C68 models which block each device holds and the shapes it traces), `jax.jit`, sharding, device placement and `jax.custom_vjp` plumbing. The two
  steps that are used as each other's derivative are proved to be transposes (C45).
- XLA, MLIR and jit behind `s2fft/utils/healpix_ffts.py:549-678` and `s2fft/utils/jax_primitive.py` (C67 models the shape
  rule, the lowering, the custom call and which rules are registered; compilation is a flag on which nothing may depend).
- `s2fft/utils/quadrature_torch.py`, `s2fft/utils/resampling_torch.py`: aliases of the JAX functions through
  the wrapper of C42.
- `spectral_folding_parallel` (`lib/src/s2fft_kernels.cu:110-163`): a kernel that no code launches.
- Warnings, logging, docstrings, type annotations, plotting, notebooks, benchmarks and tests.
- Round-off outside C66, C69-C72 and C74-C80 (Risbo's recursion, and NumPy's precomputed spherical
  transforms, with and without reality, and Wigner transforms, with and without reality, on `dh`, `gl`, `mw` and `mwss`). Angles are an arbitrary function for the on-the-fly transforms, with continuity statements
  towards the exact ones; elsewhere arithmetic is exact. Overflow to infinity and NaN are followed in the
  Price-McEwen recursion only (`Lib/Ext.v`).
- Memory sharing other than the in-place folding of C13, e.g. the update of the caller's `lrenorm` by `price_mcewen.py:496`.
- Broadcasting of axes of length one in assignments and `einsum` (the model raises ValueError), and JAX's
  clamping of indices out of range (the model raises IndexError), except where a definition says otherwise.
- Random number generators: the signal generators are modelled for an arbitrary stream of draws (C39).
- `np.polynomial.legendre.leggauss`, the node finder of the grids: an arbitrary rule, with exactness as a
  hypothesis where needed (C26). The Newton iteration for the weights is modelled on its own (C58); in the
  transforms the weights are those of the rule.

<!-- generated below -->

## Assumptions of each theorem

As listed by `Print Assumptions`; every axiom is one of the standard library.
The entries of C55-C80 and of the later additions to C30, C31 and C38 (220 theorems) were taken from the final build; the other 283 were
taken from an earlier build and not collected again. `make` prints the current list for every theorem.

No axioms (closed under the global context) — 55 theorems:

- `Properties/CudaProps.v`: C14_extension_kernel, C14_folding_kernel, C14_forward_normalised, C14_forward_transform, C14_inverse_normalised, C14_inverse_transform, C14_no_overflow, C14_ring_geometry, C14_shift_callbacks, C15_cache_returns_the_right_plans, C15_rebuild_leaks_plans_refuted, C15_transforms_create_no_plans, C43_codes_32_bit, C43_exclusive, C43_lp64_refuted, C43_success_codes
- `Properties/HealpixFFTProps.v`: C12_jax_nside1_refuted
- `Properties/IndexProps.v`: C01_elm2ind_bijection, C01_ind2elm_left_inverse, C01_ind2elm_right_inverse, C02_1d_to_2d_places_coefficients, C02_dimension_errors, C02_roundtrip_1d_2d_1d, C02_roundtrip_2d_1d_2d, C03_1d_to_2d_fast, C03_2d_to_1d_fast, C03_2d_to_hp_fast, C03_hp_to_2d_fast, C04_2d_to_hp, C04_2d_to_hp_dimension_check_refuted, C04_hp_getidx_bijection, C04_hp_layout, C04_hp_to_2d, C04_lm2lm_hp, C04_roundtrip_2d, C04_roundtrip_hp, C05_1d_to_3d, C05_elmn2ind_bijection, C05_roundtrip_1d, C05_roundtrip_3d
- `Properties/JaxCudaProps.v`: C67_rules_refuted
- `Properties/SamplesProps.v`: C06_equiangular_shapes, C06_every_name_is_covered, C06_extension, C06_healpix_shapes, C06_so3_case_refuted, C06_so3_shapes, C06_unsupported_names_raise, C07_ring_lengths, C07_ring_symmetry, C07_rings_partition_pixels
- `Properties/SignalGenProps.v`: C39_flm_independent, C39_flmn_independent, C39_indices
- `Properties/TorchProps.v`: C42_namespace

`ClassicalDedekindReals.sig_forall_dec` — 15 theorems:

- `Properties/RefineProps.v`: C38_zero
- `Properties/ResamplingProps.v`: C18_spatial
- `Properties/TorchProps.v`: C42_array_round_trip, C42_array_to_tensor, C42_call_style, C42_default_names, C42_rejects_call, C42_rejects_name, C42_rejects_torch, C42_tensor_to_array, C42_tree_to_jax, C42_tree_to_torch, C42_tuple_output_refuted, C42_unconverted_refuted, C42_wrapped

`ClassicalDedekindReals.sig_forall_dec`, `FunctionalExtensionality.functional_extensionality_dep` — 11 theorems:

- `Properties/OTFSphericalProps.v`: C32_otf_pole_refuted
- `Properties/RealFloatProps.v`: C77_kernel
- `Properties/RefineProps.v`: C38_error, C38_fixed, C38_geometric, C38_limit, C38_residual, C38_sum
- `Properties/TorchProps.v`: C42_backward, C42_backward_linear
- `Properties/WignerRealForwardFloatProps.v`: C79_real_part

`ClassicalDedekindReals.sig_forall_dec`, `ClassicalDedekindReals.sig_not_dec`, `FunctionalExtensionality.functional_extensionality_dep` — 72 theorems:

- `Properties/CustomOpsProps.v`: C55_independent, C55_rejects, C55_spin_refuted, C56_independent, C56_rejects
- `Properties/FourierWignerProps.v`: C37_rejects
- `Properties/GaussProps.v`: C58_derivative, C58_exists, C58_fixed_nodes, C58_nodes_fixed, C58_unique
- `Properties/GridProps.v`: C09_equiangular, C09_longitudes, C09_phase_shifts, C09_shifts_cancel, C10_pixel_centres, C10_range
- `Properties/HealpixFFTProps.v`: C11_rejects, C11_ring_synthesis, C11_ring_synthesis_real, C12_rejects, C12_ring_analysis, C12_ring_analysis_real, C13_jax_unchanged, C13_numpy_effect, C13_numpy_mutates_refuted, C13_numpy_unchanged
- `Properties/JaxCudaProps.v`: C67_fft, C67_ifft, C67_norm_refuted, C67_pure_refuted
- `Properties/ResamplingFloatProps.v`: C71_extension, C71_upsample
- `Properties/ResamplingProps.v`: C16_mw_to_mwss, C17_downsample_half_domain_refuted, C17_downsample_upsample, C17_upsample, C18_case_refuted, C18_extension_mw, C18_extension_mwss, C18_extension_signal, C18_unextend, C18_versions_agree, C20_conjugated_fft, C20_resampling
- `Properties/RisboFloatProps.v`: C66_exact, C66_jax_exact
- `Properties/RisboProps.v`: C27_rejects, C27_risbo, C27_risbo_jax, C27_risbo_step, C27_risbo_vectorised
- `Properties/RotationProps.v`: C40_entries, C40_identity, C40_precomputed, C40_signal
- `Properties/SignalGenProps.v`: C35_generated, C39_flm, C39_flm_admissible, C39_flmn, C39_flmn_zero, C39_rejects, C39_rejects_flmn
- `Properties/TrapaniProps.v`: C29_case_refuted, C29_eighth, C29_implementations_agree, C29_last_row_suffices, C29_quarter, C29_rejects, C29_rejects_degree, C29_run, C29_step

`ClassicalDedekindReals.sig_forall_dec`, `ClassicalDedekindReals.sig_not_dec`, `Classical_Prop.classic`, `FunctionalExtensionality.functional_extensionality_dep` — 350 theorems:

- `Properties/CBackendProps.v`: C62_backend_choice, C62_backends, C62_iterations_refuted, C62_library, C62_lower_refuted, C62_missing, C62_recovery, C62_reference, C62_rejects, C62_round_trip, C62_synthesis, C63_forward, C63_forward_exact, C63_forward_reality_refuted, C63_inverse, C63_inverse_exact, C63_odd_refuted, C63_real_forward, C63_real_inverse
- `Properties/CBackendWignerProps.v`: C65_case_refuted, C65_library, C65_lower, C65_lower_refuted, C65_missing, C65_recovery, C65_reference_forward, C65_reference_inverse, C65_rejects, C65_round_trip, C65_synthesis
- `Properties/CustomOpsProps.v`: C55_assembles, C55_synthesis, C56_one_refuted, C56_recover, C56_round_trip, C57_agrees, C57_limit_refuted, C57_recover
- `Properties/ForwardFloatProps.v`: C70_analysis, C70_binary64, C70_exact, C70_forward, C70_gl, C70_gl_binary64, C70_gl_round_trip, C70_round_trip, C70_weights
- `Properties/ForwardMWFloatProps.v`: C72_analysis, C72_binary64, C72_exact, C72_forward, C72_round_trip, C72_weights
- `Properties/FourierWignerProps.v`: C37_agrees, C37_agrees_forward, C37_expansion, C37_forward, C37_inverse, C37_kernel, C37_round_trip, C37_round_trip_refuted
- `Properties/GaussProps.v`: C58_converges, C58_ends_near, C58_range, C58_weights
- `Properties/GridProps.v`: C08_colatitudes, C08_gauss_legendre, C08_poles, C08_symmetry, C08_t2theta_gl_refuted, C10_wrap_refuted
- `Properties/HealpyProps.v`: C64_alm2map_gradient, C64_analysis, C64_error, C64_ignored_refuted, C64_library, C64_map2alm_gradient, C64_missing, C64_reference, C64_rejects, C64_shapes, C64_synthesis
- `Properties/JaxCudaProps.v`: C67_forward, C67_forward_agree, C67_inverse, C67_inverse_agree, C67_refine_refuted, C67_rejects
- `Properties/LinearProps.v`: C30_otf_wigner_forward, C30_otf_wigner_inverse, C30_precomputed_forward, C30_precomputed_inverse, C30_precomputed_wigner_forward, C30_precomputed_wigner_inverse, C30_wigner_forward, C30_wigner_inverse
- `Properties/OTFProps.v`: C41_forward_step, C41_forward_step_jax, C41_forward_step_near, C41_inverse_agree, C41_inverse_step, C41_inverse_step_jax, C41_inverse_step_near, C41_lower_refuted, C41_one_refuted, C41_regular_dense, C45_transpose
- `Properties/OTFRealityProps.v`: C31_otf_flag_real, C31_otf_spin_forward_refuted, C31_otf_spin_refuted
- `Properties/OTFSphericalProps.v`: C30_otf_forward, C30_otf_inverse, C31_otf_forward, C31_otf_inverse, C32_otf_forward, C32_otf_inverse, C33_otf_backend, C33_otf_method, C33_otf_spin, C33_ssht_iter_refuted, C38_otf_error, C46_agree, C46_angles, C46_near, C46_reference, C46_synthesis, C47_agree, C47_nside1_refuted, C47_recover, C47_reference, C47_sum, C48_round_trip
- `Properties/OTFWignerProps.v`: C33_otf_wigner_method, C33_otf_wigner_spin, C33_otf_wigner_ssht, C35_otf_forward, C35_otf_inverse, C49_agree, C49_angles, C49_mask, C49_near, C49_reference, C49_synthesis, C50_agree, C50_mask, C50_recover, C50_reference, C50_sum, C51_round_trip
- `Properties/PrecomputeFloatProps.v`: C69_binary64, C69_exact, C69_gl, C69_inverse, C69_kernel
- `Properties/PrecomputeIterProps.v`: C38_otf_recover, C38_otf_reference, C61_agrees, C61_error, C61_exact, C61_pm_error, C61_pm_recover, C61_pm_reference
- `Properties/PrecomputePMProps.v`: C36_pm_forward_agrees, C36_pm_inverse, C36_pm_inverse_agrees, C36_pm_kernel, C36_pm_roundtrip
- `Properties/PrecomputeProps.v`: C36_forward_agrees, C36_inverse, C36_inverse_agrees, C36_jax_nside1_refuted, C36_kernel, C36_rejects, C36_roundtrip, C36_spin_wrap_refuted
- `Properties/PrecomputeWignerProps.v`: C52_forward_kernel, C52_inverse_kernel, C52_one_refuted, C52_rejects, C53_agrees, C53_case_refuted, C53_independent, C53_real, C53_rejects, C53_synthesis, C54_agrees, C54_hermitian, C54_independent, C54_one_plane_refuted, C54_recover, C54_round_trip, C54_sum
- `Properties/QuadJaxProps.v`: C59_agree, C59_dh, C59_gl, C59_mw, C59_mwss, C59_transform_agree, C59_transform_mwss
- `Properties/QuadProps.v`: C19_dh, C19_gl, C19_mw, C19_mwss, C19_total_weight, C19_total_weight_healpix, C19_transform_mwss, C19_transform_rejects
- `Properties/RealFloatProps.v`: C77_analysis, C77_binary64, C77_exact, C77_gl_analysis, C77_gl_inverse, C77_inverse, C77_mw_analysis, C77_mw_round_trip, C77_round_trip
- `Properties/RefineProps.v`: C38_spherical_error, C38_spherical_exact, C38_spherical_linear
- `Properties/ResamplingFloatProps.v`: C71_binary64, C71_exact, C71_mw_to_mwss, C71_signal
- `Properties/ResamplingProps.v`: C16_harmonics_are_band_limited
- `Properties/RisboFloatProps.v`: C66_agree, C66_binary64, C66_binary64_rounded, C66_error, C66_jax, C66_jax_binary32, C66_jax_binary64, C66_operator, C66_vectorised
- `Properties/RisboProps.v`: C27_risbo_orthogonal
- `Properties/RotationProps.v`: C40_compose, C40_inverse, C40_power
- `Properties/SignalGenProps.v`: C39_round_trip, C39_wigner_round_trip
- `Properties/SlicesProps.v`: C73_docstring_index_refuted, C73_jax, C73_numpy, C73_unusable_refuted
- `Properties/SphericalProps.v`: C21_agree, C21_case_refuted, C21_reality_refuted, C22_agree, C22_reality_refuted, C23_default, C23_rings, C23_synthesis, C24_analysis, C24_identity, C24_mw_round_trip, C25_dh_round_trip, C26_gl_round_trip, C30_forward, C30_inverse, C31_forward, C31_inverse, C32_forward, C32_inverse, C33_forward_method, C33_forward_shape, C33_inverse_method, C33_inverse_shape, C44_parseval
- `Properties/SpmdProps.v`: C68_forward, C68_forward_refuted, C68_forward_step, C68_gradient_refuted, C68_healpix_refuted, C68_inverse, C68_inverse_agree, C68_inverse_step, C68_rejects, C68_warning
- `Properties/TurokJaxProps.v`: C60_agrees, C60_finite, C60_near_pole_refuted, C60_padding_refuted, C60_rejects_refuted, C60_slice
- `Properties/TurokProps.v`: C28_agrees_with_risbo, C28_docstring_index_refuted, C28_full, C28_near_pole_refuted, C28_rejects, C28_rejects_negative_refuted, C28_slice
- `Properties/WignerFloatFftProps.v`: C74_fft_binary64, C74_fft_exact, C74_fft_inverse, C74_fft_kernel
- `Properties/WignerFloatProps.v`: C74_binary64, C74_exact, C74_gl, C74_inverse, C74_kernel
- `Properties/WignerForwardFloatProps.v`: C75_analysis, C75_binary64, C75_exact, C75_fft_analysis, C75_fft_binary64, C75_fft_forward, C75_fft_round_trip, C75_forward, C75_gl, C75_gl_round_trip, C75_round_trip
- `Properties/WignerForwardMWFloatProps.v`: C76_analysis, C76_binary64, C76_exact, C76_fft_analysis, C76_fft_binary64, C76_fft_exact, C76_fft_round_trip, C76_round_trip
- `Properties/WignerProps.v`: C34_analysis, C34_identity, C34_mask, C34_rejects, C34_round_trip, C34_synthesis, C35_forward, C35_inverse
- `Properties/WignerRealFloatProps.v`: C78_binary64, C78_exact, C78_fft_binary64, C78_fft_inverse, C78_fft_kernel, C78_gl_inverse, C78_inverse, C78_kernel
- `Properties/WignerRealForwardFloatProps.v`: C79_analysis, C79_binary64, C79_exact, C79_fft_analysis, C79_fft_binary64, C79_fft_round_trip, C79_gl, C79_round_trip
- `Properties/WignerRealForwardMWFloatProps.v`: C80_analysis, C80_binary64, C80_exact, C80_fft_analysis, C80_fft_binary64, C80_fft_exact, C80_fft_round_trip, C80_round_trip

## Findings: properties the code violates

Each is a proved theorem about the model of the code as it is.

- `C04_2d_to_hp_dimension_check_refuted`: Finding: flm_2d_to_hp documents a ValueError for a non-2D input, but tests its own output array instead, so a 1D input fails with an IndexError from the reads.
- `C06_so3_case_refuted`: Finding: so3_samples.f_shape compares the equiangular names without lower-casing, unlike every other function: "MW" is a valid scheme for f_shape but an error for so3 f_shape.
- `C08_t2theta_gl_refuted`: t2theta documents "gl" as supported and rejects it.
- `C10_wrap_refuted`: A position on the centre line of a ring lies in a pixel of that ring, but longitudes just below 2 pi on every second equatorial ring are mapped to the first pixel of the next ring: the equatorial branch does not wrap its column index.
- `C12_jax_nside1_refuted`: Finding: at nside = 1 the JAX path raises on every input, while numpy succeeds.
- `C13_numpy_mutates_refuted`: Finding: the numpy path overwrites its argument, and a second call with the same array gives a different map.
- `C15_rebuild_leaks_plans_refuted`: Building the same descriptor again does create plans (the old ones stay allocated), so "repeated use creates no further plans" fails for builds.
- `C17_downsample_half_domain_refuted`: On the domain [0, pi], which the documentation of downsample_by_two_mwss also allows, the last ring is dropped: L rows come back instead of L+1.
- `C18_case_refuted`: periodic_extension compares the name of the sampling scheme case-sensitively although the sample counts it uses do not: with "MWSS" the south-pole ring is overwritten.
- `C21_case_refuted`: With the scheme in upper case the FFT method returns other samples: every second sample of the constant signal changes its sign.
- `C21_reality_refuted`: With the reality flag the FFT method ignores the imaginary part of the coefficients of order 0, the sums do not.
- `C22_reality_refuted`: Real mwss samples that do not come from a signal of band-limit L: the resampled map is complex; the direct method uses it as it is, the FFT method drops its imaginary part.
- `C28_docstring_index_refuted`: The docstring's indexing dl[L-1-m] is not the one used.
- `C28_near_pole_refuted`: The claim fails next to the south pole: within 1e-8 + 1e-5*pi of pi the code returns the values at the pole, which are different for every such angle.
- `C28_rejects_negative_refuted`: The claim that mm outside -el..el is rejected is false below -el: no error at the poles, and the slice returned is not zero although d^el_{m,mm} is.
- `C29_case_refuted`: "LOOP" is accepted, but "JAX" and "Vectorized" are not: the names are not all compared without regard to case.
- `C31_otf_spin_forward_refuted`: The same for the forward transforms: the on-the-fly one forces the symmetry of the coefficients of real signals.
- `C31_otf_spin_refuted`: So for every spin but 0, scheme off HEALPix and band-limit there are coefficients of which the reference transform returns the signal and the on-the-fly transform, given the same flag, does not.
- `C32_otf_pole_refuted`: The hypothesis that the degrees below |spin| hold zeros is needed: the sum over the ring at the south pole takes them in.
- `C33_ssht_iter_refuted`: Refinement with the SSHT back end, a documented combination, raises KeyError.
- `C36_jax_nside1_refuted`: The JAX forward transform rejects HEALPix maps of nside 1, which the NumPy one accepts.
- `C36_spin_wrap_refuted`: A spin of at least the band-limit: the column of the d-matrix wraps around, so the kernel has a non-zero entry at a degree below |spin|, where the spin harmonics vanish.
- `C37_round_trip_refuted`: The round trip fails for L = 1 with the MWSS sampling: the forward transform raises.
- `C41_lower_refuted`: With L_lower = L - 1 a slice starting at -1 takes in the degree below: for L = 2 the entry of order 0 is cos(x) (flm[0, 0] + flm[1, 0]) where only flm[1, 0] may count.
- `C41_one_refuted`: Both numpy steps raise for L = 1, the band-limit of the constant functions.
- `C42_tuple_output_refuted`: The backward pass of a function that returns a pair of arrays always raises.
- `C42_unconverted_refuted`: A tensor given for a parameter that is not differentiable reaches the JAX function unconverted.
- `C43_lp64_refuted`: With the 64-bit long of LP64 every error code counts as success.
- `C47_nside1_refuted`: The JAX transform rejects HEALPix maps of nside 1, which the numpy transform accepts.
- `C52_one_refuted`: L = 1: the default mode, which divides by log(L), raises OverflowError on the schemes with equidistant colatitudes although the mode "direct" works.
- `C53_case_refuted`: Names of schemes are compared without lower() in one place: "MWSS", accepted by the kernel and all other transforms, fails.
- `C54_one_plane_refuted`: N = 1 on mw and mwss: the resampling squeezes the axis of length one away and the call fails with IndexError for every map and kernel, although one plane is an ordinary spherical transform.
- `C55_spin_refuted`: A spin that is not below the band-limit has no coefficient, so that its signal is 0; instead of an error or 0 the function returns another signal, because the index of the column of the matrices wraps around.
- `C56_one_refuted`: With mwss and L = 1 the inverse transform works and the forward transform rejects all signals, because the width of the padding is negative.
- `C57_limit_refuted`: The documentation allows spins of absolute value N as well: the signal has no such coefficients, and those of another n are returned in their place.
- `C60_near_pole_refuted`: C60, finding: within 1e-10 of the north pole the values at the pole are returned.
- `C60_padding_refuted`: C60, finding: unlike in the numpy version the entries outside the degree are not zero.
- `C60_rejects_refuted`: C60, finding: an order outside the degree is not refused, and the slice returned is not zero.
- `C62_iterations_refuted`: C62: with iterations the call fails whether or not the package is there.
- `C62_lower_refuted`: C62: the lower band-limit is ignored: with Lo = 1 the mean of the signal is kept.
- `C63_forward_reality_refuted`: 
- `C63_odd_refuted`: C63: for odd L the two halves of the gradient of the orders m > 0 cancel: whatever the scheme and the library, the gradient of the power of the map misses the coefficient (1, 1) of a signal of positive power.
- `C64_ignored_refuted`: C64: the spin, the lower band-limit and a reality flag that is off are ignored: the map returned is not that of the signal.
- `C65_case_refuted`: C65: the inverse transform takes lower-case names only.
- `C65_lower_refuted`: C65: the other methods leave degrees below L_lower out, this one does not: the constant signal, with L_lower = 1.
- `C67_norm_refuted`: A norm given explicitly is rejected, whatever its value, although the signature has the argument.
- `C67_pure_refuted`: The forward transform leaves its argument alone: false for complex maps.
- `C67_refine_refuted`: Refinement gives what method "numpy" gives: false for complex maps, where the residual is taken from the overwritten map. The coefficient of degree zero is wrong after one round already, whatever nside and L.
- `C67_rules_refuted`: The primitive can be batched and differentiated: no rule is registered.
- `C68_forward_refuted`: On two or more devices it never returns, for any input: each device holds its block of the degrees, the factors computed inside the loop have all degrees.
- `C68_gradient_refuted`: Nor can the inverse transform be differentiated there, although it has values.
- `C68_healpix_refuted`: The number of rings of a HEALPix map is odd: no even number of devices is accepted, for any nside.
- `C73_docstring_index_refuted`: The docstrings place d^el_{m, -spin} in row L - 1 - m: wrong for L = 2, spin 0, m = 1 at every regular angle.
- `C73_unusable_refuted`: As documented, compute_all_slices can be called without coefficients or with those of generate_precomputes. Both calls raise, whatever the arguments.

## What is modelled

For each file of `Model/` the definitions with the source they cite.

### Model/CBackend.v

Model of the JAX front ends of the C libraries: s2fft/transforms/c_backend_spherical.py, the methods "jax_ssht" and "jax_healpy" of s2fft/transforms/spherical.py and "jax_ssht" of s2fft/transforms/wigner.py. The libraries are records of arbitrary functions.

- `ssht_fn`, `pyssht`
- `healpy`
- `try_import` — c_backend_spherical.py:20-28
- `sampling_str`, `backend_str` — c_backend_spherical.py:77, 109, 200, 232
- `ssht_inverse` — c_backend_spherical.py:31-89
- `einsum_tp_t`
- `add_mirrored` — c_backend_spherical.py:142-150
- `ssht_inverse_bwd` — c_backend_spherical.py:92-102, 105-151
- `ssht_forward` — c_backend_spherical.py:154-212
- `ssht_forward_bwd` — c_backend_spherical.py:215-225, 228-267
- `dtype`, `complex_dtype`, `real_dtype` — c_backend_spherical.py:275-297, 300-322
- `healpy_map2alm` — c_backend_spherical.py:325-327, 351-372
- `healpy_alm2map` — c_backend_spherical.py:375-377, 406-427
- `map2alm_abstract_eval`, `alm2map_abstract_eval` — c_backend_spherical.py:330-333, 380-383
- `scale_factors` — c_backend_spherical.py:337-341, 387-391
- `vscale`
- `map2alm_transpose` — c_backend_spherical.py:336-342
- `alm2map_transpose` — c_backend_spherical.py:386-397
- `healpy_forward` — c_backend_spherical.py:430-469
- `healpy_inverse` — c_backend_spherical.py:472-501
- `ssht_index` — spherical.py:104 = 448, wigner.py:730 = 808
- `full_inverse` — spherical.py:21-109
- `full_forward` — spherical.py:352-464
- `plane_add`
- `inverse_norm` — wigner.py:780-797
- `flmn_to_fban` — wigner.py:800-821
- `inverse_jax_ssht` — wigner.py:294-343, 824-831
- `fban_to_flmn` — wigner.py:720-743
- `reality_and_norm` — wigner.py:746-777
- `forward_jax_ssht` — wigner.py:651-702, 705-717
- `full_wigner_inverse`, `full_wigner_forward` — wigner.py:13-107, 346-439

### Model/Cuda.v

Model of the CUDA extension: ring geometry and kernels (lib/src/s2fft_kernels.cu), store callbacks (lib/src/s2fft_callbacks.cu), plan creation and execution (lib/src/s2fft.cu), plan cache (lib/src/plan_cache.cc) and entry points (lib/src/extensions.cc). C++ % on int is Z.rem (truncated), / is Z.quot. Integers are unbounded here, except in [computeNphi32], which checks every intermediate result against the range of int. cuFFT itself is a parameter: [dft_fwd], [dft_inv] transform one contiguous ring.

- `computeNphi` — lib/src/s2fft_kernels.cu:10-38
- `int32`, `obind`, `iadd`, `isub`, `imul`
- `computeNphi32` — lib/src/s2fft_kernels.cu:10-38
- `crem` — 79-80, 90-91, 189-190, 204-205
- `instr`, `copy`, `add_to`, `swap`
- `folding_program` — lib/src/s2fft_kernels.cu:46-109
- `extension_program` — lib/src/s2fft_kernels.cu:165-209
- `launched` — 214-216, 227-229
- `cread`, `cwrite`, `regs`
- `exec_instr`
- `kernel`
- `kstep`
- `krun`
- `clip`, `klaunch`, `kfinished`
- `fft_norm`, `fft_norm_eqb` — lib/include/s2fft_callbacks.h:15
- `descriptor` — lib/include/s2fft.h:30-60
- `desc_eqb` — lib/include/s2fft.h:55-59, 99-108
- `fft_shift`, `fft_shift_eq` — lib/src/s2fft_callbacks.cu:13-24, 26-37
- `scaling`
- `plan`
- `callback_forward`, `callback_backward` — lib/src/s2fft_callbacks.cu:245-310
- `executor`, `new_executor` — lib/include/s2fft.h:63-92
- `init_offsets` — lib/src/s2fft.cu:33-40
- `initialize` — lib/src/s2fft.cu:20-116, 48-49
- `apply_scaling` — lib/src/s2fft_callbacks.cu:39-51
- `store_index` — 55-130, s2fft_callbacks.cu
- `exec_plan`
- `exec_all`, `exec_forward`, `exec_backward` — lib/src/s2fft.cu:119-152
- `world`, `empty_world`, `map_of`
- `cache_find`, `list_set`
- `init_at`
- `get_exec` — lib/src/plan_cache.cc:12-50
- `build_norm`, `build` — lib/src/extensions.cc:119-150
- `runs_to`
- `cuda_forward`, `cuda_backward` — lib/src/extensions.cc:24-90

### Model/CustomOps.v

Model of the transforms of batches of spin signals s2fft/precompute_transforms/custom_ops.py, in exact arithmetic. The numpy and the JAX functions run the same steps. Arrays have the axes batch, spin, two axes of the sphere or of the coefficients, channel. numpy would also stretch axes of length one in einsum; the model raises ValueError when the lengths differ. Indices out of range raise IndexError as in numpy (JAX would clamp them).

- `arr5`, `at5`, `dim4`
- `map5_2`, `map5_3`
- `corner_set5`
- `concat5`
- `pad5`
- `take_cols`
- `einsum_bnlmc`
- `einsum_m_n_a`
- `einsum_m_n`
- `einsum_t`
- `einsum_bnamc`
- `wigner_subset_to_s2` — custom_ops.py:39-83, 119-165
- `s2_to_wigner_subset` — custom_ops.py:281-333, 366-418
- `gamma_dft` — custom_ops.py:199-203, 242-246
- `so3_to_wigner_subset` — custom_ops.py:199-205, 240-248

### Model/FFT.v

The transforms of numpy.fft / jax.numpy.fft on one axis, by their documented sums, in exact complex arithmetic. norm="backward" scales the inverse by 1/n, norm="forward" the forward transform.

- `fft_bwd`
- `ifft_fwd`
- `fft_fwd`, `ifft_bwd`
- `real_part`, `rfft_bwd`
- `irfft_fwd`

### Model/ForwardFloat.v

Model of the precomputed forward transform in rounded arithmetic: the quadrature weights of s2fft/utils/quadrature.py, the kernel of s2fft/precompute_transforms/construct.py with forward=True built with the Risbo recursion, and the function forward_transform of s2fft/precompute_transforms/spherical.py (numpy, reality=False), for the schemes "dh" and "gl", whose samples are used as they are. The conventions are those of Model/PrecomputeFloat.v.

- `ff_dh_sum`, `ff_dh_theta_only` — quadrature.py:181-201
- `ff_weights_dh` — quadrature.py:164-178
- `ff_weights` — quadrature.py:7-50
- `ff_weigh` — construct.py:149-151
- `ff_kernel` — construct.py:17-161
- `ff_einsum`
- `ff_forward` — spherical.py:314-380

### Model/ForwardMWFloat.v

Model of the precomputed forward transform in rounded arithmetic for every scheme but HEALPix: the weights of the mwss rule (s2fft/utils/quadrature.py), the kernel of s2fft/precompute_transforms/construct.py with forward=True, and the function forward_transform of s2fft/precompute_transforms/spherical.py (numpy, reality=False) with the resampling of "mw" and "mwss". The conventions are those of Model/PrecomputeFloat.v; [fft] is np.fft.fft(x, norm="backward"), on the rings and in the weights.

- `mf_mw_weights` — quadrature.py:291-320
- `mf_add_slice`
- `mf_mwss_theta_only` — quadrature.py:238-262
- `mf_weights` — quadrature.py:7-50
- `mf_thetas` — construct.py:67-76
- `mf_kernel` — construct.py:17-161
- `mf_forward` — spherical.py:314-380

### Model/FourierWigner.v

Model of the Fourier-Wigner transforms s2fft/precompute_transforms/fourier_wigner.py and of their kernels (construct.py:614-673), in exact arithmetic. The numpy and the JAX functions differ in the recursion they call (risbo, risbo_jax). numpy would also stretch axes of length one in einsum; the model raises ValueError when the lengths differ. Indices out of range raise IndexError as in numpy (JAX would clamp them).

- `map3_0`, `map3_1`, `map3_2`
- `corner_op`
- `take_last3`, `take_last2`
- `mid_get`
- `einsum_nlm_lam_lan`
- `einsum_nm_am_an`
- `einsum_amn_m_n_a`
- `einsum_ntm_m_n`
- `einsum_nam_lam_lan`
- `einsum_nam_am_an`
- `ipow`
- `abs_signs`
- `rfft_fwd`
- `concat1`, `concat0`
- `vpad`, `pad1`
- `fw_risbo`
- `fw_weights` — fourier_wigner.py:263-268, 389-393, construct.py:634-638, 661-665
- `fourier_wigner_kernel` — construct.py:626-640, 655-667
- `fw_inverse` — fourier_wigner.py:41-101, 132-182
- `fw_forward` — fourier_wigner.py:213-310, 334-429

### Model/GaussLegendre.v

Model of the Newton iteration for the Gauss-Legendre weights, in exact arithmetic: s2fft/utils/quadrature.py:125-161 quad_weights_gl and s2fft/utils/quadrature_jax.py:127-174. Both run the same steps. Divisions by zero, which give infinities or NaN in numpy, are errors of the model. The while loop runs with a bound on the number of turns; a run that needs more is an error of the model.

- `legendre_pair` — quadrature.py:148-153, quadrature_jax.py:157-162
- `newton_pp` — quadrature.py:154, quadrature_jax.py:163
- `newton_step` — quadrature.py:155-156, quadrature_jax.py:164-165
- `newton_steps`
- `newton_again`
- `newton_loop` — quadrature.py:147-156, quadrature_jax.py:151-168
- `newton_weights` — quadrature.py:158-161, quadrature_jax.py:170-174
- `newton_from`
- `newton_start` — quadrature.py:144-145, quadrature_jax.py:145-146
- `quad_weights_gl_newton` — s2fft/utils/quadrature.py:125-161, s2fft/utils/quadrature_jax.py:127-174

### Model/Grids.v

Model of the sample positions: colatitudes, longitudes, HEALPix phase shifts and the angle-to-pixel map, in exact real arithmetic.

- `gl_rule` — s2fft/utils/quadrature.py:137-159
- `t2theta_healpix` — s2fft/sampling/s2_samples.py:284-308
- `t2theta` — s2fft/sampling/s2_samples.py:229-281
- `over_arange`
- `thetas` — s2fft/sampling/s2_samples.py:203-226
- `p2phi_ring` — s2fft/sampling/s2_samples.py:329-353
- `phis_ring` — s2fft/sampling/s2_samples.py:311-326
- `p2phi_equiang` — s2fft/sampling/s2_samples.py:375-409
- `phis_equiang` — s2fft/sampling/s2_samples.py:356-372
- `ring_phase_shift_hp` — s2fft/sampling/s2_samples.py:412-443
- `p2phi_rings` — s2fft/utils/healpix_ffts.py:429-452, 455-479
- `ring_phase_shifts_hp` — s2fft/utils/healpix_ffts.py:482-509, 512-543
- `healpix_phase_shifts` — s2fft/precompute_transforms/construct.py:675-697
- `trunc`
- `hp_zphi2pix` — s2fft/sampling/s2_samples.py:571-622
- `hp_ang2pix` — s2fft/sampling/s2_samples.py:551-568

### Model/HResult.v

Model of the status codes of lib/include/hresult.h. The width of C's long is a parameter: 64 on LP64 (Linux, the target the CMake build compiles for), 32 on Windows.

- `to_long`
- `SUCCEEDED`, `FAILED` — lib/include/hresult.h:6-7
- `S_OK`, `S_FALSE` — lib/include/hresult.h:9-10
- `error_literals`, `error_code` — lib/include/hresult.h:12-21
- `E_FAIL` — lib/include/hresult.h:14

### Model/HealpixFFT.v

Model of the per-ring HEALPix Fourier transforms (NumPy and JAX versions). Entries have an arbitrary type with an addition; the ring transforms fft/ifft (and their real variants) are parameters here and are instantiated with the discrete Fourier sums in the numeric part. Python % is Z.modulo (floor), // is Z.div.

- `view_add`
- `spectral_folding` — s2fft/utils/healpix_ffts.py:19-50
- `at_add`
- `spectral_folding_jax` — s2fft/utils/healpix_ffts.py:53-79
- `spectral_periodic_extension` — s2fft/utils/healpix_ffts.py:85-117
- `spectral_periodic_extension_jax` — s2fft/utils/healpix_ffts.py:120-142
- `ring_fft_numpy` — s2fft/utils/healpix_ffts.py:210-224
- `healpix_fft_numpy` — s2fft/utils/healpix_ffts.py:187-226
- `ring_fft_jax` — 252-265
- `healpix_fft_jax` — s2fft/utils/healpix_ffts.py:229-291, 281-282
- `healpix_ifft_numpy` — s2fft/utils/healpix_ffts.py:335-371
- `ring_ifft_jax` — 398-407
- `healpix_ifft_jax` — s2fft/utils/healpix_ffts.py:374-423
- `healpix_ifft` — s2fft/utils/healpix_ffts.py:297-332
- `healpix_fft` — s2fft/utils/healpix_ffts.py:150-184

### Model/Index.v

Model of the coefficient indexing functions. Entries have an arbitrary type [A] with the operations the code applies to them: the zero the arrays are created with, negation and complex conjugation. Floating point plays no role here except in [ind2elm] (see the comment).

- `elm2ind` — s2fft/sampling/s2_samples.py:495-513
- `ind2elm` — s2fft/sampling/s2_samples.py:516-534
- `ncoeff` — s2fft/sampling/s2_samples.py:537-548
- `flm_shape` — s2fft/sampling/s2_samples.py:481-492
- `hp_getidx` — s2fft/sampling/s2_samples.py:625-644
- `flmn_shape` — s2fft/sampling/so3_samples.py:50-65
- `flmn_shape_1d` — s2fft/sampling/so3_samples.py:105-118
- `elmn2ind` — s2fft/sampling/so3_samples.py:192-213
- `sgn_pow`
- `flm_2d_to_1d` — s2fft/sampling/s2_samples.py:647-691
- `flm_1d_to_2d` — s2fft/sampling/s2_samples.py:694-738
- `flm_hp_to_2d` — s2fft/sampling/s2_samples.py:741-794
- `flm_2d_to_hp` — s2fft/sampling/s2_samples.py:797-849
- `lm2lm_hp` — s2fft/sampling/s2_samples.py:852-897
- `flmn_3d_to_1d` — s2fft/sampling/so3_samples.py:216-251
- `flmn_1d_to_3d` — s2fft/sampling/so3_samples.py:254-289
- `where2` — s2fft/sampling/reindex.py
- `triu_indices`
- `scatter2`
- `gather2`
- `tri_positions` — reindex.py:40-43, 78-81
- `flm_1d_to_2d_fast` — s2fft/sampling/reindex.py:8-44
- `flm_2d_to_1d_fast` — s2fft/sampling/reindex.py:47-82
- `slice_from`
- `slice_to`
- `flm_hp_to_2d_fast` — s2fft/sampling/reindex.py:85-135
- `flm_2d_to_hp_fast` — s2fft/sampling/reindex.py:138-183

### Model/JaxCuda.v

Model of the HEALPix ring transforms through the JAX primitive "healpix_fft_cuda" (s2fft/utils/healpix_ffts.py:546-693, s2fft/utils/jax_primitive.py) and of the transforms method = "jax_cuda" of s2fft/transforms/spherical.py on HEALPix maps. The device side (kernels, plans, plan cache) is Model/Cuda.v. A call is a relation: it holds between the state of the plan cache before and after, the uninitialised output buffer, the buffer of the operand after the call, and the result. The schedule of the threads is what makes it a relation. Not modelled: the compiler XLA itself, streams and launch errors, a build without CUDA (whose functions throw std::runtime_error), the option spmd.

- `rules`, `register_primitive`
- `primitive_rules` — healpix_ffts.py:613-618
- `jax_transformation`, `apply_transformation`
- `dtype`, `is_complex`
- `promote_complex`, `zlist_eqb` — healpix_ffts.py:645, 675
- `abstract_eval` — healpix_ffts.py:549-563
- `normalize_flag` — healpix_ffts.py:585-592
- `lowering` — healpix_ffts.py:566-606
- `ravel`, `unravel`
- `custom_call` — lib/src/extensions.cc:90-100
- `bind_primitive`
- `device_call`, `healpix_fft_cuda`, `healpix_ifft_cuda` — healpix_ffts.py:621-648, 651-678
- `healpix_fft_on_device`, `healpix_ifft_on_device` — healpix_ffts.py:150-184, 297-332
- `over_n`, `over_sqrt_n`, `device_fft`, `device_ifft` — lib/src/s2fft_callbacks.cu
- `inverse_rows` — spherical.py:278-337
- `inverse_jax_cuda` — spherical.py:211-347
- `forward_rest` — spherical.py:686-755
- `forward_jax_cuda` — spherical.py:591-755
- `refine_device` — iterative_refinement.py:9-46
- `otf_inverse_cuda`, `otf_forward_cuda` — spherical.py:21-109, 352-464

### Model/OTF.v

Model of the on-the-fly latitudinal steps s2fft/transforms/otf_recursions.py, over the reals with infinities and NaN. The option spmd (several devices) is in Model/Spmd.v. JAX clamps indices out of range where the model raises.

- `pm_lamb` — otf_recursions.py:104-109, 140-145, 268-273, 311-316, 514-519, 554-559, 695-700, 755-760
- `one_by_position`, `one_by_index` — otf_recursions.py:153, 331, 567
- `pm_half_to` — otf_recursions.py:95-169, 259-411, 503-586, 687-857, 92-93, 500-501
- `pm_half`
- `pm_halves`
- `pre_fits`
- `blen`, `bidx`
- `col_set`
- `inv_emit` — otf_recursions.py:118-124, 127-133, 156-162, 285-303, 334-342
- `half_offset`
- `inverse_latitudinal_step` — otf_recursions.py:15-171
- `pole_set`
- `south_pole`, `north_pole`
- `l_offset` — otf_recursions.py:413, spherical.py:156
- `set_poles` — otf_recursions.py:412-428, transforms/spherical.py:175-184
- `inverse_latitudinal_step_jax` — otf_recursions.py:174-429
- `fwd_emit` — otf_recursions.py:528-537, 540-549, 570-579, 712-738, 771-781
- `forward_latitudinal_step` — otf_recursions.py:432-588
- `pole_add`, `add_south`, `add_north` — otf_recursions.py:877-886
- `forward_latitudinal_step_jax` — otf_recursions.py:591-886

### Model/OTFSpherical.v

Model of the on-the-fly transforms s2fft/transforms/spherical.py. The colatitudes come from an arbitrary function th (samples.thetas with its rounding); quadrature weights and longitudes are exact. The option spmd (several devices) is in Model/Spmd.v, the CUDA primitive in Model/JaxCuda.v; the C backends are not modelled here.

- `finite_at`, `cval`, `finite2`
- `rscale`, `econj`
- `normalise`, `cscale` — spherical.py:166-168, 281-288, 574-576, 733-740
- `mul_phases` — spherical.py:189, 330, 546, 692
- `mirror_orders` — spherical.py:195-197, 335-337
- `shift_rings` — spherical.py:187-189, 328-330, 544-546, 690-692
- `inverse_numpy` — spherical.py:112-208
- `inverse_jax` — spherical.py:211-346, 290-325
- `otf_prepare` — spherical.py:511-519 / 655-663
- `otf_analysis` — spherical.py:528-538 / 671-684
- `weigh` — spherical.py:541, 687
- `mirror_real` — spherical.py:580-583, 744-749
- `clear_rows` — spherical.py:586, 752-753
- `forward_numpy` — spherical.py:467-588
- `forward_jax` — spherical.py:591-755, quadrature_jax.py:10-51, quadrature.py
- `known_method`, `recursive_method` — spherical.py:761-777, s2fft/utils/torch_wrapper.py
- `backend_checks` — spherical.py:95-105 = 439-449
- `run_inverse`, `run_forward`
- `otf_inverse` — spherical.py:21-109
- `otf_forward` — spherical.py:352-464

### Model/OTFWigner.v

Model of the on-the-fly Wigner transforms s2fft/transforms/wigner.py. As in Model/OTFSpherical.v the colatitudes come from an arbitrary function th; the C backend behind "jax_ssht" is not modelled.

- `lread`
- `wigner_pre`
- `numpy_list` — wigner.py:164-167, 495-498
- `jax_arrays` — wigner.py:252-255, 588-591
- `jax_entry` — wigner.py:265-283, 607-617
- `scale_degrees`, `inv_scale`, `fwd_scale` — wigner.py:173-177, 258-263, 527-531, 638-645
- `gamma_synthesis` — wigner.py:188-193, 286-291
- `gamma_analysis`, `n_start` — wigner.py:501-507, 595-600
- `inverse_numpy3` — wigner.py:110-195
- `vmap_axes`
- `inverse_jax3` — wigner.py:198-291
- `so3_rank`
- `forward_numpy3` — wigner.py:442-533
- `forward_jax3` — wigner.py:536-646, 619-635
- `known_method3`, `checks3` — wigner.py:794-806, 83-98, 415-430
- `otf_wigner_inverse` — wigner.py:13-107
- `otf_wigner_forward` — wigner.py:346-439

### Model/PMSlices.v

Model of the Price & McEwen recursion over all orders at once, s2fft/recursions/price_mcewen.py:377-643 (compute_all_slices, compute_all_slices_jax), over the reals with infinities and NaN. JAX clamps or drops indices out of range where the model raises.

- `slice_emit` — 585-594, 617-623
- `compute_all_slices_jax` — price_mcewen.py:501-643
- `pm_list` — 431-436
- `unpack_seven`
- `compute_all_slices` — price_mcewen.py:377-498

### Model/Precompute.v

Model of the precomputed-kernel transforms: s2fft/precompute_transforms/construct.py (spin_spherical_kernel) and s2fft/precompute_transforms/spherical.py, in exact arithmetic. Kernels have complex entries (the real kernels of the code have imaginary part 0). numpy would also stretch axes of length one in assignments and einsum; the model raises ValueError when the lengths differ. Warnings are not modelled. The functions ending in _at take the colatitudes of samples.thetas as an argument; those without use the exact ones.

- `arr3`, `at3`, `dim2`
- `cell_set`
- `mid_set`
- `einsum_tlm_l`, `einsum_tlm_t`, `einsum_tlm_tm`
- `einsum_tlm_lm`, `einsum_tlm_tm_lm`
- `PM_MAX_STABLE_SPIN` — construct.py
- `choose_recursion` — construct.py:65-73 = 213-221
- `kernel_thetas_at`, `kernel_thetas` — construct.py:80-84 = 228-232
- `elfactors`
- `kernel_turok` — construct.py:89-96, turok.py
- `planes_col`
- `irfft0`
- `risbo_planes`, `kernel_risbo_direct` — construct.py:107-111, 267-274
- `ipow`
- `kernel_nsamps` — construct.py:119-124 = 282-287
- `risbo_plane`, `fourier_slice`, `kernel_risbo_fourier` — construct.py:125-140, 288-303
- `kernel_risbo` — construct.py:99-140 / 259-303
- `pole_rows` — construct.py:247-248, 252-253
- `rval`, `finite3`
- `kernel_price_mcewen` — construct.py:237-256
- `kernel_finish` — construct.py:148-159 / 311-322, quadrature_jax.py:10-51, quadrature.py
- `spin_spherical_kernel_at`, `spin_spherical_kernel` — construct.py:16-161
- `spin_spherical_kernel_jax_at`, `spin_spherical_kernel_jax` — construct.py:164-324
- `backend_name` — spherical.py
- `flip1`
- `pre_synthesis` — spherical.py:131-148 / 201-218
- `areal`
- `inverse_transform` — spherical.py:87-149, 153-220
- `pre_analysis` — spherical.py:359-370 / 429-440
- `forward_transform` — spherical.py:314-380, 384-457
- `method_backend`, `kernel_function_at`, `kernel_function` — spherical.py:463-480, s2fft/utils/torch_wrapper.py
- `pre_inverse_at`, `pre_inverse` — spherical.py:19-84
- `pre_forward_at`, `pre_forward` — spherical.py:226-311

### Model/PrecomputeFloat.v

Model of the precomputed inverse transform in rounded arithmetic: the kernel of s2fft/precompute_transforms/construct.py built with the Risbo recursion and the function inverse_transform of s2fft/precompute_transforms/spherical.py (numpy, reality=False), for the schemes other than HEALPix. Every operation on numbers is one operation of the record of rounded operations (see Model/RisboFloat.v for what is left out). The fast Fourier transforms are arguments: the code calls numpy's, whose operations are not modelled. np.einsum does not document the order in which it adds: the order is an argument as well (adding the first term to the initial 0 is exact and left out).

- `cf_mul`, `cf_add`
- `order`, `terms`, `cf_sum`
- `in_turn_from`, `in_turn`
- `pf_col` — construct.py:111
- `pf_direct` — construct.py:107-111
- `ffts`
- `pf_exp` — construct.py:137
- `pf_slice` — construct.py:131-137
- `pf_fourier` — construct.py:125-140
- `pf_elfactor`, `pf_normalise` — construct.py:143
- `pf_thetas` — sampling/s2_samples.py:195-293
- `pf_kernel` — construct.py:17-161
- `pf_einsum`
- `pf_inverse` — spherical.py:87-149

### Model/PrecomputeIter.v

Model of the iterative refinement of s2fft/precompute_transforms/spherical.py:forward.

- `pre_forward_iter_at`, `pre_forward_iter` — spherical.py:226-311

### Model/PrecomputeWigner.v

Model of the precomputed Wigner transforms: s2fft/precompute_transforms/construct.py (wigner_kernel, wigner_kernel_jax) and s2fft/precompute_transforms/wigner.py, in exact arithmetic. Kernels have complex entries (the real kernels of the code have imaginary part 0). numpy would also stretch axes of length one in assignments and einsum; the model raises ValueError when the lengths differ. Indices out of range raise IndexError as in numpy (JAX would clamp them).

- `arr4`, `at4`, `dim3`
- `el_set`
- `tail_set`
- `head_set`
- `last_from`
- `stack`, `map_planes` — resampling.py, resampling_jax.py
- `squeeze0`
- `einsum_ntlm_t`, `einsum_ntlm_l`, `einsum_ntlm_tm`
- `einsum_ntlm_nlm`, `einsum_ntlm_ntm`
- `wigner_mode` — construct.py:374-385 = 513-524
- `planes_take`
- `wkernel_direct` — construct.py:407-411, 546-551
- `fourier_slices` — construct.py:432-439 = 572-579
- `wkernel_fourier` — construct.py:420-441, 560-581
- `wigner_kernel` — construct.py:332-468, 471-611, quadrature_jax.py, quadrature.py
- `in_healpix` — wigner.py:123, 190, 344, 427
- `wm_offset` — wigner.py:115, 177, 342, 425
- `pw_inverse_transform` — wigner.py:80-138, 141-218
- `reality_fill` — wigner.py:357-368 / 446-465
- `pw_forward_transform` — wigner.py:291-370, 373-467
- `pw_inverse`, `pw_forward` — wigner.py:13-77, 224-288, 473-490

### Model/PriceMcEwen.v

Model of the coefficients of the Price & McEwen recursion, s2fft/recursions/price_mcewen.py:14-374, over the reals with infinities and NaN. Arrays indexed by (theta, el) are functions of the two positions; their extents are recorded in the result. Arrays with one more axis in front are vectors of such functions, with checked access along that axis.

- `theta_fn`, `exact_thetas`, `rounded_thetas`
- `plane`
- `pm_pre` — price_mcewen.py:113
- `half_slice` — price_mcewen.py:66
- `pm_thetas` — price_mcewen.py:52-56, 157-162
- `pm_lt`, `pm_logc2` — price_mcewen.py:62-64
- `pm_first` — price_mcewen.py:74
- `pm_ratio` — price_mcewen.py:77
- `pm_log_first_row` — price_mcewen.py:72-81
- `pm_cpi_val`, `pm_cp` — price_mcewen.py:70-71, 84-87
- `pm_roll` — price_mcewen.py:89-91, 197-203
- `pm_vsigns` — price_mcewen.py:96-99
- `pm_lrenorm_half` — price_mcewen.py:101-108
- `generate_precomputes` — price_mcewen.py:14-113
- `pm_cp_jax` — price_mcewen.py:181-195
- `pm_lrenorm_jax` — price_mcewen.py:215-244
- `generate_precomputes_jax` — price_mcewen.py:116-255
- `generate_precomputes_wigner` — price_mcewen.py:258-306
- `pm_pre_wigner`, `generate_precomputes_wigner_jax` — price_mcewen.py:309-374

### Model/Quadrature.v

Model of s2fft/utils/quadrature.py in exact arithmetic.

- `mw_weights` — s2fft/utils/quadrature.py:291-320
- `vrev_down`
- `vadd_slice`
- `quad_weights_mwss_theta_only` — s2fft/utils/quadrature.py:238-262
- `quad_weights_mw_theta_only` — s2fft/utils/quadrature.py:265-288
- `quad_weights_mw`, `quad_weights_mwss` — s2fft/utils/quadrature.py:204-218, 221-235
- `quad_weight_dh_theta_only` — s2fft/utils/quadrature.py:181-201
- `quad_weights_dh` — s2fft/utils/quadrature.py:164-178
- `quad_weights_gl` — s2fft/utils/quadrature.py:125-161
- `quad_weights_hp` — s2fft/utils/quadrature.py:99-122
- `quad_weights_transform` — s2fft/utils/quadrature.py:7-50
- `quad_weights` — s2fft/utils/quadrature.py:53-96

### Model/QuadratureJax.v

Model of s2fft/utils/quadrature_jax.py in exact arithmetic. The functions are compiled with static arguments, so the loops and tests on L, m and the name run in Python. There is no spin: the mirrored half is added with sign +1.

- `mw_weights_jax` — s2fft/utils/quadrature_jax.py:313-342
- `vadd_at`
- `quad_weights_mwss_theta_only_jax` — s2fft/utils/quadrature_jax.py:259-282
- `quad_weights_mw_theta_only_jax` — s2fft/utils/quadrature_jax.py:286-309
- `quad_weights_mw_jax`, `quad_weights_mwss_jax` — s2fft/utils/quadrature_jax.py:221-236, 240-255
- `quad_weight_dh_theta_only_jax` — s2fft/utils/quadrature_jax.py:197-217
- `quad_weights_dh_jax` — s2fft/utils/quadrature_jax.py:178-193
- `quad_weights_hp_jax` — s2fft/utils/quadrature_jax.py:103-123
- `quad_weights_transform_jax` — s2fft/utils/quadrature_jax.py:9-54
- `quad_weights_jax` — s2fft/utils/quadrature_jax.py:57-99

### Model/RealFloat.v

Model of the precomputed spherical transforms with reality=True in rounded arithmetic: the half kernel of s2fft/precompute_transforms/construct.py:17-161 (spin_spherical_kernel, numpy, recursion="risbo", reality=True) and the functions inverse_transform and forward_transform of s2fft/precompute_transforms/spherical.py:87-149 and 314-380 (numpy, reality=True), for the schemes other than HEALPix. The conventions are those of Model/PrecomputeFloat.v, Model/ForwardFloat.v and Model/ForwardMWFloat.v.

- `pr_kernel` — construct.py:17-161
- `pr_kernel_forward` — quadrature.py:260
- `pr_inverse` — spherical.py:87-149
- `pr_rings` — spherical.py:364-380
- `pr_forward` — spherical.py:314-380

### Model/Refine.v

Model of s2fft/utils/iterative_refinement.py and of the refined reference transform.

- `asub`, `aadd`
- `refine_step`, `refine` — iterative_refinement.py:9-46
- `forward_iter` — base_transforms/spherical.py:134-196

### Model/Resampling.v

Model of s2fft/utils/resampling.py and s2fft/utils/resampling_jax.py. Simplification: the leading batch axis, over which every operation maps, is dropped: the model is one item, with a scalar spin. The squeeze of mw_to_mwss and upsample_by_two_mwss removes only that axis.

- `slice2_scale`, `backend`
- `inv_fft_shift`, `inv_fft_n_shift` — resampling_jax.py:88-94, 136-142, 224-233, 337-343
- `pow_m1`
- `periodic_extension` — s2fft/utils/resampling.py:6-61, resampling_jax.py:145-233
- `periodic_extension_spatial_mwss` — s2fft/utils/resampling.py:64-101, resampling_jax.py:346-396
- `upsample_by_two_mwss_ext` — s2fft/utils/resampling.py:134-160, resampling_jax.py:307-343
- `unextend` — s2fft/utils/resampling.py:196-245, resampling_jax.py:236-271
- `upsample_by_two_mwss` — s2fft/utils/resampling.py:104-131, resampling_jax.py:274-304
- `downsample_by_two_mwss` — s2fft/utils/resampling.py:163-193
- `mw_to_mwss_phi` — s2fft/utils/resampling.py:248-281, resampling_jax.py:99-142
- `mw_to_mwss_theta` — s2fft/utils/resampling.py:284-326, resampling_jax.py:41-96
- `mw_to_mwss` — s2fft/utils/resampling.py:329-355, resampling_jax.py:9-38

### Model/ResamplingFloat.v

Model of s2fft/utils/resampling.py in rounded arithmetic: the functions the forward transforms of the mw and mwss schemes call, and periodic_extension. Every operation on numbers is one operation of the record of rounded operations (see Model/RisboFloat.v for what is left out). The fast Fourier transforms are arguments: the code calls numpy's, whose operations are not modelled. Simplification as in Model/Resampling.v: one item of the batch, with a scalar spin.

- `rffts`
- `rs_scale`
- `rs_extension` — s2fft/utils/resampling.py:6-61
- `rs_spatial` — s2fft/utils/resampling.py:64-101
- `rs_upsample_ext` — s2fft/utils/resampling.py:134-160
- `rs_upsample` — s2fft/utils/resampling.py:104-131
- `rs_phi` — s2fft/utils/resampling.py:248-281
- `rs_exp` — s2fft/utils/resampling.py:315-317
- `rs_theta` — s2fft/utils/resampling.py:284-326
- `rs_mw_to_mwss` — s2fft/utils/resampling.py:329-355

### Model/Risbo.v

Model of the Risbo recursion for the Wigner d-matrices, over the reals (floating point is replaced by exact arithmetic). Arrays are checked numpy arrays: an index out of range would be an IndexError value.

- `rsqrt`
- `risbo_arg_checks` — s2fft/recursions/risbo.py:106-120
- `risbo_half1` — s2fft/recursions/risbo.py:61-74
- `risbo_half2` — s2fft/recursions/risbo.py:80-101
- `risbo_step` — s2fft/recursions/risbo.py:28-103
- `risbo_full` — s2fft/recursions/risbo.py:4-103
- `risbo_full_vec` — s2fft/recursions/risbo.py:123-229
- `risbo_run`, `risbo_run_vec` — precompute_transforms/construct.py:129-130
- `outer` — s2fft/recursions/risbo_jax.py:8-117
- `risbo_jax_half` — s2fft/recursions/risbo_jax.py:70-81, 97-116
- `risbo_jax`, `risbo_jax_run` — s2fft/recursions/risbo_jax.py:30-117, 97-112

### Model/RisboFloat.v

Model of the Risbo recursion in rounded arithmetic. Every arithmetic operation of the code is one operation of a record of rounded operations on the reals; nothing is assumed about them here. The values of floating-point numbers are reals: overflow, infinities and NaNs are not modelled. The negation of a number is exact in floating point, so x -= y is x + (-y). Python integers are converted exactly (they are far below 2^53).

- `arith`
- `exact_arith`
- `rf_arg_checks` — s2fft/recursions/risbo.py:106-120
- `rf_term` — s2fft/recursions/risbo.py:71-74
- `rf_half1` — s2fft/recursions/risbo.py:61-74
- `rf_half2` — s2fft/recursions/risbo.py:80-101
- `rf_step` — s2fft/recursions/risbo.py:28-103
- `rf_full` — s2fft/recursions/risbo.py:4-103
- `rf_run` — precompute_transforms/construct.py:129-130
- `rf_full_vec`, `rf_run_vec` — s2fft/recursions/risbo.py:123-229
- `rf_outer` — s2fft/recursions/risbo_jax.py:8-117
- `rf_jax_half` — s2fft/recursions/risbo_jax.py:70-81, 97-116
- `rf_jax`, `rf_jax_run` — s2fft/recursions/risbo_jax.py:30-117

### Model/Rotation.v

Model of s2fft/utils/rotation.py.

- `exp_array` — rotation.py:71-73
- `sum_over`
- `rotate_degree` — rotation.py:48-66
- `rotate_flms` — rotation.py:10-67
- `plane_add`
- `generate_rotate_dls` — rotation.py:77-96

### Model/Samples.v

Model of the integer part of the sampling module: numbers of samples, shapes, rings. Optional Python arguments that may be None are [option Z]; arithmetic on None is a TypeError. Sampling names are arbitrary strings.

- `need`
- `ntheta` — s2fft/sampling/s2_samples.py:4-52
- `ntheta_extension` — s2fft/sampling/s2_samples.py:55-82
- `nphi_equiang` — s2fft/sampling/s2_samples.py:85-123
- `ftm_shape` — s2fft/sampling/s2_samples.py:126-155
- `nphi_equitorial_band` — s2fft/sampling/s2_samples.py:158-170
- `nphi_ring` — s2fft/sampling/s2_samples.py:173-200
- `f_shape` — s2fft/sampling/s2_samples.py:446-478
- `nalpha` — s2fft/sampling/so3_samples.py:121-145
- `nbeta` — s2fft/sampling/so3_samples.py:148-175
- `ngamma` — s2fft/sampling/so3_samples.py:178-189
- `so3_f_shape` — s2fft/sampling/so3_samples.py:6-47
- `fnab_shape` — s2fft/sampling/so3_samples.py:68-102

### Model/SignalGen.v

Model of s2fft/utils/signal_generator.py.

- `rng`
- `standard_normal`
- `complex_normal` — signal_generator.py:10-39
- `tril_indices`
- `complex_el_and_m_indices` — signal_generator.py:42-73
- `scatter`
- `mapM`, `vec_of`, `gather`
- `rows`
- `generate_flm` — signal_generator.py:76-123
- `generate_plane` — signal_generator.py:157-199
- `generate_flmn` — signal_generator.py:126-201

### Model/Spherical.v

Model of the reference transforms s2fft/base_transforms/spherical.py, in exact arithmetic. Arrays are checked ndarrays; HEALPix maps have one axis. Warnings are not modelled.

- `elfactor` — spherical.py:336
- `el_range`, `is_hp` — spherical.py:333
- `m_offset` — spherical.py:489, 579, 847, 963
- `ring_phis`, `equi_phis` — spherical.py:324-331, 424-428, 658-663, 748-754
- `pix_entry` — spherical.py:339-343
- `enum`, `cexp_m`
- `inverse_direct` — spherical.py:286-369
- `inverse_sov` — spherical.py:372-443
- `ring_synthesis` — spherical.py:523-534 = 599-610
- `inverse_sov_fft` — spherical.py:446-536
- `vmul`, `vrphase`, `ring_phase`
- `inverse_sov_fft_vectorized` — spherical.py:539-612
- `forward_direct` — spherical.py:615-703
- `forward_sov` — spherical.py:706-799
- `ring_analysis` — spherical.py:845-862 = 961-980
- `forward_sov_fft` — spherical.py:802-915
- `forward_sov_fft_vectorized` — spherical.py:918-1011
- `shape_is`, `assert_` — spherical.py:116-121, 267-272
- `inverse_` — spherical.py:62-131
- `inverse` — spherical.py:12-59
- `forward_prepare` — spherical.py:252-265
- `forward_` — spherical.py:199-283
- `forward` — spherical.py:134-196

### Model/Spmd.v

Model of the option spmd of the on-the-fly JAX transforms (s2fft/transforms/otf_recursions.py:356-394, 805-861, s2fft/transforms/spherical.py:290-325, 694-730): the loop over the orders runs on all [ndev] = local_device_count() devices, each on its block. pmap runs the same function on every block and stacks the results; JAX traces the function once, on the shapes of a block, before anything runs.

- `pm_state`, `pm_factor`
- `pm_head` — otf_recursions.py:261-304, 689-740
- `pm_body` — otf_recursions.py:306-356, 742-803
- `pm_loop` — 360-377, 807-837
- `on_devices`
- `join_rows`
- `block_plane`, `block_rows`, `block_angles`, `block_pre`
- `inverse_half_spmd` — otf_recursions.py:259-394
- `inverse_step_spmd` — otf_recursions.py:174-429
- `column_plane`, `column_vec`, `column_pre`
- `set_from`
- `trace_block` — 755-760
- `forward_half_spmd` — otf_recursions.py:687-861
- `forward_step_spmd` — otf_recursions.py:591-886
- `inverse_jax_spmd` — spherical.py:211-346
- `forward_jax_spmd` — spherical.py:591-755
- `otf_inverse_spmd`, `otf_forward_spmd` — spherical.py:21-109, 352-464
- `inverse_step_vjp_spmd` — spherical.py:310-322

### Model/TorchWrapper.v

s2fft/utils/torch_wrapper.py: conversion of nested arguments and wrapping of JAX functions.

- `tensor`, `dot`, `prod`, `row_strides`, `unravel`
- `t_at`, `zlist_eqb`, `is_contiguous`
- `contiguous`
- `resolve_conj`
- `detach`
- `conj_tensor`
- `from_dlpack`
- `jax_array_to_torch_tensor` — torch_wrapper.py:71-87
- `torch_tensor_to_jax_array` — torch_wrapper.py:90-118
- `atom`, `pytree`
- `insert_key`, `sort_keys`
- `tree_map`
- `tree_map_jax_array_to_torch_tensor` — torch_wrapper.py:121-137
- `tree_map_torch_tensor_to_jax_array` — torch_wrapper.py:140-156
- `param`, `lookup`, `remove_key`
- `bind_args`
- `set_key`, `set_keys`
- `argnames`, `pick` — torch_wrapper.py:182-193
- `torch_forward` — torch_wrapper.py:159-230, 196-230
- `torch_call`
- `jacobian`, `indices`
- `jax_vjp`
- `torch_backward` — torch_wrapper.py:218-228
- `wrapped_names` — torch_wrapper.py:262-264

### Model/Trapani.v

Model of the Trapani & Navaza recursion for the Wigner d-matrices at pi/2, over the reals. Arrays are checked numpy arrays. The caller's array is updated in place and returned by the loop-based and vectorised variants; the model returns it. _arg_checks (s2fft/recursions/trapani.py:776-792) has no effect.

- `tcell`
- `down`
- `trapani_init_body` — trapani.py:41-67, 69-93
- `trapani_init` — trapani.py:8-38
- `fact9`, `fact10`
- `t1f`, `t2f`
- `trapani_dmm` — trapani.py:133-145, 209-222, 286-301
- `compute_eighth` — trapani.py:96-174
- `compute_quarter_vectorized` — trapani.py:177-245
- `scan_rows` — trapani.py:315-331
- `compute_quarter_jax` — trapani.py:247-339
- `eval_all`, `cells_set`
- `meshgrid`
- `fill_eighth2quarter` — trapani.py:342-371
- `fill_quarter2half` — trapani.py:374-403
- `fill_quarter2half_grid` — trapani.py:406-437, 440-475
- `fill_half2full` — trapani.py:477-509
- `fill_half2full_grid` — trapani.py:512-543, 546-581
- `compute_full_loop` — trapani.py:635-666
- `compute_quarter` — trapani.py:669-706
- `compute_full_vectorized` — trapani.py:709-739
- `compute_full_jax` — trapani.py:742-773
- `trapani_full` — trapani.py:583-632
- `trapani_run`

### Model/Turok.v

Model of the Turok & Bucher recursion (NumPy), over the reals: np.sqrt, np.log, np.exp, the trigonometric functions and the comparisons are the exact ones. Array accesses are checked.

- `isclose`
- `atol8`, `big_const`
- `msign`
- `turok_log_first_row` — s2fft/recursions/turok.py:172-176
- `turok_cp` — s2fft/recursions/turok.py:182-185
- `turok_rescale` — s2fft/recursions/turok.py:208-210
- `turok_half` — s2fft/recursions/turok.py:195-210
- `turok_quarter_slice` — s2fft/recursions/turok.py:111-235, 178-179
- `turok_slice` — s2fft/recursions/turok.py:44-108
- `turok_first_row` — s2fft/recursions/turok.py:294-300
- `turok_cp_full` — s2fft/recursions/turok.py:303-309
- `turok_row` — s2fft/recursions/turok.py:316-330, 334-347
- `turok_row_scale` — s2fft/recursions/turok.py:350-361
- `turok_identity` — 259-262
- `turok_quarter` — s2fft/recursions/turok.py:238-365
- `turok_copy`, `turok_fill` — s2fft/recursions/turok.py:368-413, 394-397, 401-405
- `turok_full` — s2fft/recursions/turok.py:6-41

### Model/TurokJax.v

Model of s2fft/recursions/turok_jax.py in IEEE arithmetic without rounding: the loops run past the degree el, where the coefficients are infinite or NaN, and nan_to_num clears what remains. All calls are compiled; the angle and el are traced, L and mm are Python integers.

- `jidx`, `jget`, `jset`
- `jmul`
- `jroll`
- `egt`
- `enonzero`, `jany`
- `tj_first_row` — turok_jax.py:108-123
- `tj_cpi` — turok_jax.py:128-129
- `tj_cp2` — turok_jax.py:130
- `tj_lamb` — turok_jax.py:148, 153
- `tj_rescale` — turok_jax.py:171
- `tj_half` — turok_jax.py:146-176
- `tj_quarter_slice` — turok_jax.py:66-187
- `tj_north_pole` — turok_jax.py:191-214
- `tj_south_pole` — turok_jax.py:218-241
- `tj_el0` — turok_jax.py:245-261
- `tj_reindex` — turok_jax.py:265-297
- `tj_tol`
- `tj_slice` — turok_jax.py:10-62

### Model/Wigner.v

Model of the reference Wigner transforms s2fft/base_transforms/wigner.py, in exact arithmetic. Signals on SO(3) have the axes [gamma, beta, alpha], or [gamma, pixel] for HEALPix.

- `plane`
- `plane_set`
- `planes_from`
- `line0`, `map_axis0`
- `amap`
- `einsum_nlm_l`
- `wigner_inverse` — wigner.py:55-84
- `conj_plane` — wigner.py:145-146, 159-162
- `wigner_forward` — wigner.py:132-168

### Model/WignerFloat.v

Model of the precomputed inverse Wigner transform in rounded arithmetic: the kernel of s2fft/precompute_transforms/construct.py:332-468 (wigner_kernel, numpy, reality=False, both modes) and s2fft/precompute_transforms/wigner.py:80-138 (inverse_transform), for the schemes other than HEALPix. The conventions are those of Model/PrecomputeFloat.v: one rounded operation for each operation on numbers, the order in which np.einsum adds is an argument, and so is numpy's two-dimensional Fourier transform.

- `wf_take` — construct.py:411
- `wf_direct` — construct.py:399-411
- `wf_factor`, `wf_normalise` — construct.py:453-457
- `wf_kernel` — construct.py:332-468
- `wf_slices` — construct.py:432-439
- `wf_fourier` — construct.py:418-441
- `wf_kernel_fft` — construct.py:332-468
- `wf_einsum`
- `wf_ifft2`
- `wf_inverse` — wigner.py:80-138

### Model/WignerForwardFloat.v

Model of the precomputed forward Wigner transform in rounded arithmetic: the kernel of s2fft/precompute_transforms/construct.py:332-468 (wigner_kernel, numpy, reality=False, forward=True, both modes) and s2fft/precompute_transforms/wigner.py:291-370 (forward_transform, reality=False), for the schemes "dh" and "gl", whose samples are used as they are. The conventions are those of Model/PrecomputeFloat.v, Model/ForwardFloat.v and Model/WignerFloat.v.

- `xf_scale` — construct.py:450
- `xf_weigh` — construct.py:449-450
- `xf_kernel` — construct.py:332-468
- `xf_kernel_fft`
- `xf_einsum`
- `xf_forward` — wigner.py:291-370

### Model/WignerForwardMWFloat.v

Model of the precomputed forward Wigner transform in rounded arithmetic on "mw" and "mwss": the kernel of s2fft/precompute_transforms/construct.py:332-468 (wigner_kernel, numpy, reality=False, forward=True, both modes), which belongs to the rings of the mwss grid of band-limit 2L, and s2fft/precompute_transforms/wigner.py:291-370 (forward_transform, reality=False), which resamples every plane to that grid. The conventions are those of Model/PrecomputeFloat.v, Model/ForwardMWFloat.v, Model/ResamplingFloat.v and Model/WignerForwardFloat.v.

- `xm_kernel` — construct.py:332-468, quadrature.py:260
- `xm_kernel_fft`
- `xm_rings` — wigner.py:346-356
- `xm_forward` — wigner.py:291-370, resampling.py

### Model/WignerRealFloat.v

Model of the precomputed inverse Wigner transform of real signals in rounded arithmetic: the half kernel of s2fft/precompute_transforms/construct.py:332-468 (wigner_kernel, numpy, reality=True, both modes) and s2fft/precompute_transforms/wigner.py:80-138 (inverse_transform, reality=True), for the schemes other than HEALPix. The conventions are those of Model/WignerFloat.v.

- `wr_direct` — construct.py:399-411
- `wr_kernel` — construct.py:332-468
- `wr_slices` — construct.py:432-439
- `wr_fourier` — construct.py:418-441
- `wr_kernel_fft` — construct.py:332-468
- `wr_inverse` — wigner.py:80-138

### Model/WignerRealForwardFloat.v

Model of the precomputed forward Wigner transform of real signals in rounded arithmetic: the kernel of s2fft/precompute_transforms/construct.py:332-468 (wigner_kernel, numpy, reality=True, forward=True, both modes) and s2fft/precompute_transforms/wigner.py:291-370 (forward_transform, reality=True), for the schemes "dh" and "gl", whose samples are used as they are. The conventions are those of Model/WignerForwardFloat.v and Model/WignerRealFloat.v.

- `xr_kernel` — construct.py:332-468
- `xr_kernel_fft`
- `xr_gamma` — wigner.py:326
- `xr_fill` — wigner.py:357-368
- `xr_forward` — wigner.py:291-370

### Model/WignerRealForwardMWFloat.v

Model of the precomputed forward Wigner transform of real signals in rounded arithmetic on "mw" and "mwss": the kernel of s2fft/precompute_transforms/construct.py:332-468 (wigner_kernel, numpy, reality=True, forward=True, both modes), which belongs to the rings of the mwss grid of band-limit 2L, and s2fft/precompute_transforms/wigner.py:291-370 (forward_transform, reality=True), which resamples the planes n >= 0 to that grid. The conventions are those of Model/WignerForwardMWFloat.v and Model/WignerRealForwardFloat.v.

- `xq_kernel` — construct.py:332-468, quadrature.py:260
- `xq_kernel_fft`
- `xq_rings` — wigner.py:346-368
- `xq_forward` — wigner.py:291-370, resampling.py
