(** C14, C15, C43: CUDA kernels, plan cache and status codes. *)
From Coq Require Import ZifyBool Psatz.
From Verif Require Import Lib.Py Lib.Vec Lib.VecFacts Model.Samples Model.HealpixFFT Model.Cuda
  Model.HResult Spec.SamplesSpec Spec.CudaSpec Proofs.SamplesProofs Proofs.HealpixFFTProofs
  Proofs.CudaProofs Proofs.CudaKernelProofs Proofs.CudaPlanProofs Proofs.CudaCacheProofs
  Proofs.CudaPropsProofs Proofs.HResultProofs.
Open Scope Z_scope.

(** ** C14 *)
(** Ring lengths are those of nphi_ring and offsets are the running sums. *)
Theorem C14_ring_geometry : forall nside t, 1 <= nside -> 0 <= t < 4 * nside - 1 ->
  nphi_ring t nside = Ok (fst (computeNphi nside t)) /\
  snd (computeNphi nside t) = ring_start (fun u => fst (computeNphi nside u)) t.
Proof. exact geometry_lemma. Qed.
Example C14_ring_geometry_ex : 1 <= 2 /\ 0 <= 5 < 4 * 2 - 1 /\ computeNphi 2 5 = (8, 36).
Proof. repeat split; try lia. Qed.

(** No intermediate int overflows as long as the pixel count is an int. *)
Theorem C14_no_overflow : forall nside t, 1 <= nside -> 0 <= t < 4 * nside - 1 ->
  12 * nside * nside < 2 ^ 31 -> computeNphi32 nside t = Some (computeNphi nside t).
Proof. exact computeNphi32_spec. Qed.
Example C14_no_overflow_ex : 1 <= 8192 /\ 0 <= 40 < 4 * 8192 - 1 /\ 12 * 8192 * 8192 < 2 ^ 31.
Proof. lia. Qed.

(** The folding kernel, under every interleaving of its threads and for every content of the
    output buffer: no access is out of bounds, and on completion each ring holds the Python
    folding of its row (ifftshifted when shift is set). *)
Theorem C14_folding_kernel : forall (A : Type) (add : A -> A -> A) (zero : A)
  (nside L : Z) (shift : bool) (ftm : vec (vec A)) (data out0 : vec A),
  1 <= nside -> 4 * nside <= 2 * L -> is_flat (4 * nside - 1) (2 * L) ftm data ->
  vlen out0 = 12 * nside * nside ->
  let n := launched (4 * nside - 1) in
  let start := klaunch zero n (folding_program nside L shift) out0 in
  (forall sched, exists k, krun add data sched start = Ok k /\
    (kfinished n k -> forall t, 0 <= t < 4 * nside - 1 ->
       exists row' slice slice_jax,
         spectral_folding add (vat ftm t) (ring_length nside t) L = Ok (row', slice) /\
         spectral_folding_jax add (vat ftm t) (ring_length nside t) L = Ok slice_jax /\
         veq slice slice_jax /\
         veq (pixels_of_ring nside t (k_out k)) (if shift then ifftshift slice else slice))) /\
  (exists sched k, krun add data sched start = Ok k /\ kfinished n k).
Proof. exact @folding_lemma. Qed.
Example C14_folding_kernel_ex :
  1 <= 2 /\ 4 * 2 <= 2 * 5 /\
  is_flat 7 10 (mkVec 7 (fun t => mkVec 10 (fun k => t * 10 + k))) (mkVec 70 (fun i => i)).
Proof. repeat split; try lia. Qed.

(** The extension kernel, likewise: row t of the output is the Python extension of ring t. *)
Theorem C14_extension_kernel : forall (A : Type) (add : A -> A -> A) (zero : A)
  (nside L : Z) (data out0 : vec A),
  1 <= nside -> 4 * nside <= 2 * L -> vlen data = 12 * nside * nside ->
  vlen out0 = (4 * nside - 1) * (2 * L) ->
  let n := launched (2 * L * (4 * nside - 1)) in
  let start := klaunch zero n (extension_program nside L) out0 in
  (forall sched, exists k, krun add data sched start = Ok k /\
    (kfinished n k -> vlen (k_out k) = (4 * nside - 1) * (2 * L) /\
       forall t, 0 <= t < 4 * nside - 1 ->
       exists row, spectral_periodic_extension zero (pixels_of_ring nside t data)
           (ring_length nside t) L = Ok row /\
         veq row (spectral_periodic_extension_jax (pixels_of_ring nside t data) L) /\
         forall j, 0 <= j < 2 * L -> vat (k_out k) (t * (2 * L) + j) = vat row j)) /\
  (exists sched k, krun add data sched start = Ok k /\ kfinished n k).
Proof. exact @extension_lemma. Qed.
Example C14_extension_kernel_ex : 1 <= 3 /\ 4 * 3 <= 2 * 7 /\
  vlen (vconst 108 0) = 12 * 3 * 3 /\ vlen (vconst 154 0) = (4 * 3 - 1) * (2 * 7).
Proof. repeat split; cbn; lia. Qed.

(** The store callbacks stay inside the ring of the element and exchange its halves. *)
Theorem C14_shift_callbacks : forall n dist b e,
  0 < n -> Z.even n = true -> n <= dist -> 0 <= b < 2 -> 0 <= e < n ->
  fft_shift (b * dist + e) n dist = b * dist + (e + n / 2) mod n /\
  forall r, 0 <= r -> fft_shift_eq (r * n + e) n = r * n + (e + n / 2) mod n.
Proof. exact shift_lemma. Qed.
Example C14_shift_callbacks_ex : fft_shift (1 * 40 + 7) 8 40 = 43 /\ fft_shift_eq (3 * 8 + 1) 8 = 29.
Proof. split; reflexivity. Qed.

(** healpix_fft on the device (descriptor with norm "backward", whatever happened before in the
    process) returns the table the NumPy routine returns. *)
Theorem C14_forward_transform : forall (A : Type) (add : A -> A -> A) (zero : A)
  (fft rfft : vec A -> vec A) (scale1 scale2 : Z -> A -> A) (history : list call)
  (nside L : Z) (reality double : bool) (f out0 : vec A),
  length_preserving fft -> extensional fft -> Forall call_ok history ->
  1 <= nside -> 4 * nside <= 2 * L -> vlen f = 12 * nside * nside ->
  vlen out0 = (4 * nside - 1) * (2 * L) ->
  let '(d, w) := build nside L reality true false double (after history) in
  exists ftm, healpix_fft_numpy zero fft rfft f L nside false = Ok ftm /\
  (exists w' f' out, cuda_forward add zero fft scale1 scale2 d w f out0 w' f' out) /\
  forall w' f' out, cuda_forward add zero fft scale1 scale2 d w f out0 w' f' out ->
    is_flat (4 * nside - 1) (2 * L) ftm out.
Proof. exact @forward_lemma. Qed.
Example C14_forward_transform_ex :
  @length_preserving Z (@vrev Z) /\ @extensional Z (@vrev Z) /\
  Forall call_ok [CallBuild 1 2 false false false true; CallTransform (mkDesc 4 8 true true ORTHO false false)] /\
  1 <= 2 /\ 4 * 2 <= 2 * 5.
Proof.
  split; [intros x; reflexivity|]. split.
  { intros x y [E G]. split; [exact E|]. cbn. intros i Hi. rewrite <- E. apply G. lia. }
  split; [|lia]. repeat constructor; cbn; lia.
Qed.

(** healpix_ifft on the device (norm "forward") returns the map the NumPy routine returns. *)
Theorem C14_inverse_transform : forall (A : Type) (add : A -> A -> A) (zero : A)
  (ifft : vec A -> vec A) (irfft : vec A -> Z -> vec A) (scale1 scale2 : Z -> A -> A)
  (history : list call) (nside L : Z) (reality double : bool) (ftm : vec (vec A)) (data out0 : vec A),
  length_preserving ifft -> extensional ifft -> Forall call_ok history ->
  1 <= nside -> 4 * nside <= 2 * L -> is_flat (4 * nside - 1) (2 * L) ftm data ->
  vlen out0 = 12 * nside * nside ->
  let '(d, w) := build nside L reality false false double (after history) in
  exists ftm' f, healpix_ifft_numpy zero add ifft irfft ftm L nside false = Ok (ftm', f) /\
  (exists w' out, cuda_backward add zero ifft scale1 scale2 d w data out0 w' out) /\
  forall w' out, cuda_backward add zero ifft scale1 scale2 d w data out0 w' out -> veq out f.
Proof. exact @inverse_lemma. Qed.
Example C14_inverse_transform_ex :
  1 <= 1 /\ 4 * 1 <= 2 * 3 /\ Forall call_ok [] /\
  is_flat 3 6 (mkVec 3 (fun t => mkVec 6 (fun k => t * k))) (mkVec 18 (fun i => i / 6 * (i mod 6))).
Proof.
  repeat split; try lia; [constructor|]. cbn [vat]. intros k Hk.
  replace ((t * 6 + k) / 6) with t by (apply Z.div_unique with k; lia).
  replace ((t * 6 + k) mod 6) with k by (apply Z.mod_unique with t; lia). reflexivity.
Qed.

(** With norm "backward" every sample of the inverse is scaled by its ring length. *)
Theorem C14_inverse_normalised : forall (A : Type) (add : A -> A -> A) (zero : A)
  (ifft : vec A -> vec A) (irfft : vec A -> Z -> vec A) (scale1 scale2 : Z -> A -> A)
  (history : list call) (nside L : Z) (reality double : bool) (ftm : vec (vec A)) (data out0 : vec A),
  length_preserving ifft -> extensional ifft -> Forall call_ok history ->
  1 <= nside -> 4 * nside <= 2 * L -> is_flat (4 * nside - 1) (2 * L) ftm data ->
  vlen out0 = 12 * nside * nside ->
  let '(d, w) := build nside L reality false true double (after history) in
  exists ftm' f, healpix_ifft_numpy zero add ifft irfft ftm L nside false = Ok (ftm', f) /\
  (exists w' out, cuda_backward add zero ifft scale1 scale2 d w data out0 w' out) /\
  forall w' out, cuda_backward add zero ifft scale1 scale2 d w data out0 w' out ->
    vlen out = 12 * nside * nside /\ forall t p, 0 <= t < 4 * nside - 1 -> 0 <= p < ring_length nside t ->
      vat out (ring_start (ring_length nside) t + p)
      = scale1 (ring_length nside t) (vat f (ring_start (ring_length nside) t + p)).
Proof. exact @inverse_normalised_lemma. Qed.

(** Other normalisations: FORWARD divides the forward transform by the ring length. *)
Theorem C14_forward_normalised : forall (A : Type) (add : A -> A -> A) (zero : A)
  (fft : vec A -> vec A) (scale1 scale2 : Z -> A -> A) (history : list call)
  (nside L : Z) (reality double : bool) (f out0 : vec A),
  length_preserving fft -> extensional fft -> Forall call_ok history ->
  1 <= nside -> 4 * nside <= 2 * L -> vlen f = 12 * nside * nside ->
  vlen out0 = (4 * nside - 1) * (2 * L) ->
  let '(d, w) := build nside L reality true true double (after history) in
  forall w' f' out, cuda_forward add zero fft scale1 scale2 d w f out0 w' f' out ->
    forall t k, 0 <= t < 4 * nside - 1 -> 0 <= k < 2 * L ->
      vat out (t * (2 * L) + k)
      = scale1 (ring_length nside t)
          (vat (fft (pixels_of_ring nside t f)) ((k - L) mod ring_length nside t)).
Proof. exact @forward_normalised_lemma. Qed.

(** ** C15 *)
(** After any history of builds and transforms, the executor used for a descriptor behaves as
    one freshly initialised for it. *)
Theorem C15_cache_returns_the_right_plans : forall (A : Type) (history : list call) (d : descriptor),
  Forall call_ok history -> 1 <= d_nside d ->
  exists id w ex, get_exec d (after history) = (id, w) /\ nth_error (w_heap w) id = Some ex /\
    same_behaviour A ex (fresh_executor d).
Proof. intros A h d. apply cache_history. Qed.
Example C15_cache_ex :
  Forall call_ok [CallBuild 2 4 false true false true; CallBuild 4 8 false true false true;
                  CallBuild 2 4 true false true true] /\ 1 <= d_nside (mkDesc 2 4 false true BACKWARD true true).
Proof. split; [repeat constructor; cbn; lia|cbn; lia]. Qed.

(** Transforms for a descriptor that has been built create no plans. *)
Theorem C15_transforms_create_no_plans : forall (history : list call) nside L reality forward normalize double k,
  Forall call_ok history -> 1 <= nside ->
  let w := after (history ++ [CallBuild nside L reality forward normalize double])%list in
  let d := mkDesc nside L reality forward (build_norm forward normalize) true double in
  w_handles (fold_left after_call (repeat (CallTransform d) k) w) = w_handles w.
Proof. exact transforms_no_plans. Qed.
Example C15_transforms_ex : w_handles (after [CallBuild 2 4 false true false true]) = 8.
Proof. reflexivity. Qed.

(** Building the same descriptor again does create plans (the old ones stay allocated), so
    "repeated use creates no further plans" fails for builds. *)
Theorem C15_rebuild_leaks_plans_refuted : forall nside L reality forward normalize double k, 1 <= nside ->
  w_handles (after (repeat (CallBuild nside L reality forward normalize double) k))
  = if Nat.eqb k 0 then 0 else (Z.of_nat k + 1) * (2 * nside).
Proof. exact rebuild_handles. Qed.
Example C15_rebuild_ex :
  w_handles (after [CallBuild 2 4 false true false true]) <
  w_handles (after [CallBuild 2 4 false true false true; CallBuild 2 4 false true false true]).
Proof. reflexivity. Qed.

(** ** C43 *)
(** With a 32-bit long the macros classify all codes as intended. *)
Theorem C43_codes_32_bit : forall lit, In lit error_literals ->
  FAILED 32 (error_code 32 lit) = true /\ SUCCEEDED 32 (error_code 32 lit) = false.
Proof. exact codes_32. Qed.
Theorem C43_success_codes : forall w, 2 <= w ->
  SUCCEEDED w (S_OK w) = true /\ SUCCEEDED w (S_FALSE w) = true.
Proof. exact success_codes. Qed.
Theorem C43_exclusive : forall w hr, SUCCEEDED w hr = negb (FAILED w hr).
Proof. exact succeeded_iff_not_failed. Qed.
(** With the 64-bit long of LP64 every error code counts as success. *)
Theorem C43_lp64_refuted : forall lit, In lit error_literals ->
  FAILED 64 (error_code 64 lit) = false /\ SUCCEEDED 64 (error_code 64 lit) = true.
Proof. intros lit. apply codes_wide. lia. Qed.
Example C43_ex : In 0x80004005 error_literals /\ SUCCEEDED 64 (E_FAIL 64) = true /\ SUCCEEDED 32 (E_FAIL 32) = false.
Proof. cbn. auto 10. Qed.

Print Assumptions C14_ring_geometry.
Print Assumptions C14_no_overflow.
Print Assumptions C14_folding_kernel.
Print Assumptions C14_extension_kernel.
Print Assumptions C14_shift_callbacks.
Print Assumptions C14_forward_transform.
Print Assumptions C14_inverse_transform.
Print Assumptions C14_inverse_normalised.
Print Assumptions C14_forward_normalised.
Print Assumptions C15_cache_returns_the_right_plans.
Print Assumptions C15_transforms_create_no_plans.
Print Assumptions C15_rebuild_leaks_plans_refuted.
Print Assumptions C43_codes_32_bit.
Print Assumptions C43_success_codes.
Print Assumptions C43_exclusive.
Print Assumptions C43_lp64_refuted.
