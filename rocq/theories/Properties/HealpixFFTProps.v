(** C11, C12, C13: HEALPix ring FFTs over the complex numbers. *)
From Coq Require Import Reals ZifyBool Psatz.
From Coquelicot Require Import Complex.
From Verif Require Import Lib.Py Lib.PyFacts Lib.Vec Lib.VecFacts Lib.Sums Lib.Cplx
  Model.Samples Model.HealpixFFT Model.FFT Spec.SamplesSpec Spec.HealpixFFTSpec
  Proofs.SamplesProofs Proofs.HealpixFFTProofs Proofs.HealpixDFTProofs.
Open Scope Z_scope.

(** ** C11 *)
(** Every pixel receives the sum over all 2L orders, whatever the length of its ring. *)
Theorem C11_ring_synthesis : forall nside L (ftm : vec (vec C)) method,
  1 <= nside -> 4 * nside <= 2 * L -> ftm_table nside L ftm ->
  (method = "numpy"%string \/ method = "jax"%string) ->
  exists ftm' f, healpix_ifft (RtoC 0) Cplus ifft_fwd irfft_fwd ftm L nside method false = Ok (ftm', f) /\
    vlen f = 12 * (nside * nside) /\
    forall t p, 0 <= t < 4 * nside - 1 -> 0 <= p < ring_length nside t ->
      pixel nside t p f = ring_value (vat ftm t) L (ring_length nside t) p.
Proof. exact C11_lemma. Qed.
Print Assumptions C11_ring_synthesis.
Example C11_ring_synthesis_ex :
  1 <= 2 /\ 4 * 2 <= 2 * 5 /\ ftm_table 2 5 (vconst 7 (vconst 10 Ci)).
Proof. repeat split; try lia. Qed.

(** With the real-signal option the result is the same for tables of real signals. *)
Theorem C11_ring_synthesis_real : forall nside L (ftm : vec (vec C)) method,
  1 <= nside -> 4 * nside <= 2 * L -> ftm_table nside L ftm ->
  (forall t, 0 <= t < 4 * nside - 1 -> hermitian_row L (vat ftm t)) ->
  (method = "numpy"%string \/ method = "jax"%string) ->
  exists ftm' f, healpix_ifft (RtoC 0) Cplus ifft_fwd irfft_fwd ftm L nside method true = Ok (ftm', f) /\
    vlen f = 12 * (nside * nside) /\
    forall t p, 0 <= t < 4 * nside - 1 -> 0 <= p < ring_length nside t ->
      pixel nside t p f = ring_value (vat ftm t) L (ring_length nside t) p.
Proof. exact C11_real_lemma. Qed.
Print Assumptions C11_ring_synthesis_real.
(** L = 2 nside, so that the equatorial rings take the real-FFT branch. *)
Example C11_ring_synthesis_real_ex :
  let row := mkVec 4 (fun k => if k =? 1 then Cconj Ci else if k =? 3 then Ci else
                               if k =? 2 then RtoC 5 else RtoC 0) in
  ftm_table 1 2 (vconst 3 row) /\ ring_length 1 1 = 2 * 2 /\
  forall t, 0 <= t < 4 * 1 - 1 -> hermitian_row 2 (vat (vconst 3 row) t).
Proof.
  cbv zeta. split; [split; [reflexivity|intros; reflexivity]|]. split; [reflexivity|].
  intros t _. split; [reflexivity|]. intros m Hm.
  assert (m = 0 \/ m = 1) as [-> | ->] by lia; cbn; [|reflexivity].
  apply C_eq; cbn; [reflexivity|ring].
Qed.

(** Under-resolved tables and unknown methods are rejected. *)
Theorem C11_rejects : forall nside L (ftm : vec (vec C)) method reality,
  (L < 2 * nside ->
   healpix_ifft (RtoC 0) Cplus ifft_fwd irfft_fwd ftm L nside method reality = Err AssertionError) /\
  (2 * nside <= L -> method <> "numpy"%string -> method <> "jax"%string ->
   healpix_ifft (RtoC 0) Cplus ifft_fwd irfft_fwd ftm L nside method reality = Err ValueError).
Proof. exact C11_checks_lemma. Qed.
Print Assumptions C11_rejects.
Example C11_rejects_ex : 3 < 2 * 2 /\ (2 * 2 <= 4 /\ "NumPy"%string <> "numpy"%string /\ "NumPy"%string <> "jax"%string).
Proof. repeat split; try lia; discriminate. Qed.

(** ** C12 *)
(** Row t, column k is the Fourier coefficient of order k - L of the samples of ring t: the
    spectrum of a short ring is continued periodically. *)
Theorem C12_ring_analysis : forall nside L (f : vec C) method,
  1 <= nside -> 4 * nside <= 2 * L -> vlen f = 12 * (nside * nside) ->
  (method = "numpy"%string \/ (method = "jax"%string /\ 2 <= nside)) ->
  exists ftm, healpix_fft (RtoC 0) fft_bwd rfft_bwd f L nside method false = Ok ftm /\
    ftm_table nside L ftm /\
    forall t k, 0 <= t < 4 * nside - 1 -> 0 <= k < 2 * L ->
      vat (vat ftm t) k = ring_coefficient (fun p => pixel nside t p f) (ring_length nside t) (k - L).
Proof. exact C12_lemma. Qed.
Print Assumptions C12_ring_analysis.
Example C12_ring_analysis_ex : 1 <= 2 /\ 4 * 2 <= 2 * 5 /\ vlen (vconst 48 Ci) = 12 * (2 * 2) /\ 2 <= 2.
Proof. repeat split; lia. Qed.

(** With the real-signal option, on real maps: the same, except that rings of full length
    leave the negative orders zero. *)
Theorem C12_ring_analysis_real : forall nside L (f : vec C) method,
  1 <= nside -> 4 * nside <= 2 * L -> vlen f = 12 * (nside * nside) ->
  (forall i, 0 <= i < 12 * (nside * nside) -> is_real (vat f i)) ->
  (method = "numpy"%string \/ (method = "jax"%string /\ 2 <= nside)) ->
  exists ftm, healpix_fft (RtoC 0) fft_bwd rfft_bwd f L nside method true = Ok ftm /\
    ftm_table nside L ftm /\
    forall t k, 0 <= t < 4 * nside - 1 -> 0 <= k < 2 * L ->
      vat (vat ftm t) k =
        if (ring_length nside t =? 2 * L) && (k <? L) then RtoC 0
        else ring_coefficient (fun p => pixel nside t p f) (ring_length nside t) (k - L).
Proof. exact C12_real_lemma. Qed.
Print Assumptions C12_ring_analysis_real.
Example C12_ring_analysis_real_ex :
  1 <= 2 /\ 4 * 2 <= 2 * 4 /\ vlen (vconst 48 (RtoC 3)) = 12 * (2 * 2) /\
  (forall i, 0 <= i < 12 * (2 * 2) -> is_real (vat (vconst 48 (RtoC 3)) i)) /\ ring_length 2 3 = 2 * 4.
Proof. repeat split; lia. Qed.

(** The numpy path rejects tables that cannot hold a ring. *)
Theorem C12_rejects : forall nside L (f : vec C) reality,
  1 <= nside -> 1 <= L -> 2 * L < 4 * nside -> vlen f = 12 * (nside * nside) ->
  healpix_fft (RtoC 0) fft_bwd rfft_bwd f L nside "numpy" reality = Err AssertionError.
Proof. exact C12_assert_lemma. Qed.
Print Assumptions C12_rejects.
Example C12_rejects_ex : 1 <= 2 /\ 1 <= 3 /\ 2 * 3 < 4 * 2 /\ vlen (vconst 48 Ci) = 12 * (2 * 2).
Proof. repeat split; lia. Qed.

(** Finding: at nside = 1 the JAX path raises on every input, while numpy succeeds. *)
Theorem C12_jax_nside1_refuted : forall L (f : vec C) reality,
  healpix_fft (RtoC 0) fft_bwd rfft_bwd f L 1 "jax" reality = Err ValueError.
Proof. exact C12_jax_nside1_lemma. Qed.
Print Assumptions C12_jax_nside1_refuted.

(** ** C13 *)
(** Finding: the numpy path overwrites its argument, and a second call with the same array
    gives a different map. *)
Theorem C13_numpy_mutates_refuted :
  exists ftm ftm' ftm'' f f',
    ftm_table 1 3 ftm /\
    healpix_ifft (RtoC 0) Cplus ifft_fwd irfft_fwd ftm 3 1 "numpy" false = Ok (ftm', f) /\
    healpix_ifft (RtoC 0) Cplus ifft_fwd irfft_fwd ftm' 3 1 "numpy" false = Ok (ftm'', f') /\
    vat (vat ftm 0) 1 = RtoC 1 /\ vat (vat ftm' 0) 1 = RtoC 2 /\
    vat f 0 = RtoC 6 /\ vat f' 0 = RtoC 8.
Proof. exact C13_refuted_lemma. Qed.
Print Assumptions C13_numpy_mutates_refuted.

(** Exactly what the numpy path does to its argument: columns a ring can resolve receive the
    sum of their residue class, the others stay. *)
Theorem C13_numpy_effect : forall nside L (ftm : vec (vec C)) reality,
  1 <= nside -> 4 * nside <= 2 * L -> ftm_table nside L ftm ->
  exists ftm' f, healpix_ifft (RtoC 0) Cplus ifft_fwd irfft_fwd ftm L nside "numpy" reality = Ok (ftm', f) /\
    ftm_table nside L ftm' /\
    forall t j, 0 <= t < 4 * nside - 1 -> 0 <= j < 2 * L ->
      let n := ring_length nside t in
      vat (vat ftm' t) j =
        if (L - n / 2 <=? j) && (j <? L + n / 2)
        then csum (zrange 0 (2 * L)) (fun k => if (k - j) mod n =? 0 then vat (vat ftm t) k else RtoC 0)
        else vat (vat ftm t) j.
Proof. exact C13_effect_lemma. Qed.
Print Assumptions C13_numpy_effect.
Example C13_numpy_effect_ex :
  1 <= 2 /\ 4 * 2 <= 2 * 5 /\ ftm_table 2 5 (vconst 7 (vconst 10 Ci)).
Proof. repeat split; try lia. Qed.

(** The argument survives when no ring has content at orders it cannot resolve. *)
Theorem C13_numpy_unchanged : forall nside L (ftm : vec (vec C)) reality,
  1 <= nside -> 4 * nside <= 2 * L -> ftm_table nside L ftm ->
  (forall t k, 0 <= t < 4 * nside - 1 -> 0 <= k < 2 * L ->
     k < L - ring_length nside t / 2 \/ L + ring_length nside t / 2 <= k -> vat (vat ftm t) k = RtoC 0) ->
  exists ftm' f, healpix_ifft (RtoC 0) Cplus ifft_fwd irfft_fwd ftm L nside "numpy" reality = Ok (ftm', f) /\
    vlen ftm' = vlen ftm /\ forall t, 0 <= t < 4 * nside - 1 -> veq (vat ftm' t) (vat ftm t).
Proof. exact C13_unchanged_lemma. Qed.
Print Assumptions C13_numpy_unchanged.
Example C13_numpy_unchanged_ex :
  let ftm := vconst 3 (mkVec 6 (fun k => if (k =? 1) || (k =? 4) then Ci else RtoC 0)) in
  ftm_table 1 3 ftm /\
  forall t k, 0 <= t < 4 * 1 - 1 -> 0 <= k < 2 * 3 ->
     k < 3 - ring_length 1 t / 2 \/ 3 + ring_length 1 t / 2 <= k -> vat (vat ftm t) k = RtoC 0.
Proof.
  cbv zeta. split; [split; [reflexivity|intros; reflexivity]|]. intros t k Ht Hk.
  assert (ring_length 1 t = 4) as -> by (unfold ring_length; lia). change (4 / 2) with 2. intros H.
  cbn [vat vconst]. now replace ((k =? 1) || (k =? 4)) with false by lia.
Qed.

(** The JAX path never changes its argument. *)
Theorem C13_jax_unchanged : forall nside L (ftm ftm' : vec (vec C)) f reality,
  healpix_ifft (RtoC 0) Cplus ifft_fwd irfft_fwd ftm L nside "jax" reality = Ok (ftm', f) -> ftm' = ftm.
Proof. exact C13_jax_lemma. Qed.
Print Assumptions C13_jax_unchanged.
Example C13_jax_unchanged_ex : exists f,
  healpix_ifft (RtoC 0) Cplus ifft_fwd irfft_fwd (vconst 3 (vconst 6 Ci)) 3 1 "jax" false
  = Ok (vconst 3 (vconst 6 Ci), f).
Proof. eexists. reflexivity. Qed.
