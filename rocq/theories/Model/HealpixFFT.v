(** Model of the per-ring HEALPix Fourier transforms (NumPy and JAX versions).

    Entries have an arbitrary type with an addition; the ring transforms fft/ifft (and their
    real variants) are parameters here and are instantiated with the discrete Fourier sums in
    the numeric part. Python % is Z.modulo (floor), // is Z.div. *)
From Verif Require Import Lib.Py Lib.Vec Model.Samples.
Open Scope Z_scope.

Section Folding.
  Context {A : Type} (add : A -> A -> A).

  (** x[dst] += src where x is the view fm[lo:lo+n]: the write goes through to [fm]. *)
  Definition view_add (fm : vec A) (lo n dst : Z) (src : result A) : result (vec A) :=
    match norm_index n dst with
    | None => Err IndexError
    | Some d =>
        let* old := vread fm (lo + d) in
        let* s := src in
        vwrite fm (lo + d) (add old s)
    end.

  (** s2fft/utils/healpix_ffts.py:19-50 spectral_folding.
      Line 39 takes a view, so the += of lines 43 and 47 change the caller's array: the model
      returns the array after the call together with the returned slice. The while loops of
      lines 42 and 46 are loops over 1..slice_start and 0..len(fm)-slice_stop-1. *)
  Definition spectral_folding (fm : vec A) (nphi L : Z) : result (vec A * vec A) :=
    if negb (nphi <=? 2 * L) then Err AssertionError else
    let slice_start := L - nphi / 2 in
    let slice_stop := slice_start + nphi in
    let lo := slice_lo (vlen fm) slice_start in
    let n := slice_len (vlen fm) slice_start slice_stop in
    let* fm := foldM (fun fm idx =>
        view_add fm lo n ((- idx) mod nphi) (vread fm (slice_start - idx)))
        (zrange 1 (slice_start + 1)) fm in
    let* fm := foldM (fun fm idx =>
        view_add fm lo n (idx mod nphi) (vread fm (slice_stop + idx)))
        (zrange 0 (vlen fm - slice_stop)) fm in
    Ok (fm, vslice fm slice_start slice_stop).

  (** x.at[dst].add(src) on a JAX array (functional update). *)
  Definition at_add (x : vec A) (dst : Z) (src : result A) : result (vec A) :=
    let* old := vread x dst in
    let* s := src in
    vwrite x dst (add old s).

  (** s2fft/utils/healpix_ffts.py:53-79 spectral_folding_jax. The scatter-add over an index
      array is the loop over its entries; gathers are in range for len(fm) = 2L and even nphi
      (JAX would clamp otherwise, not modelled: the model raises). *)
  Definition spectral_folding_jax (fm : vec A) (nphi L : Z) : result (vec A) :=
    let slice_start := L - nphi / 2 in
    let slice_stop := slice_start + nphi in
    let ftm_slice := vslice fm slice_start slice_stop in
    let* ftm_slice := foldM (fun x k =>
        at_add x ((- k) mod nphi) (vread fm (slice_start - k)))
        (zrange 1 (L - nphi / 2 + 1)) ftm_slice in
    foldM (fun x k => at_add x (k mod nphi) (vread fm (slice_stop + k)))
      (zrange 0 (L - nphi / 2)) ftm_slice.
End Folding.

Section Extension.
  Context {A : Type} (zero : A).

  (** s2fft/utils/healpix_ffts.py:85-117 spectral_periodic_extension *)
  Definition spectral_periodic_extension (fm : vec A) (nphi L : Z) : result (vec A) :=
    if negb (nphi <=? 2 * L) then Err AssertionError else
    let slice_start := L - nphi / 2 in
    let slice_stop := slice_start + nphi in
    let fm_full := vconst (2 * L) zero in
    let* fm_full := vassign fm_full slice_start slice_stop fm in
    let* fm_full := foldM (fun full idx =>
        let* v := vread fm ((- idx) mod nphi) in vwrite full (slice_start - idx) v)
        (zrange 1 (slice_start + 1)) fm_full in
    foldM (fun full idx =>
        let* v := vread fm (idx mod nphi) in vwrite full (slice_stop + idx) v)
        (zrange 0 (vlen fm_full - slice_stop)) fm_full.

  (** s2fft/utils/healpix_ffts.py:120-142 spectral_periodic_extension_jax. arange(a, 0, -1)
      lists a, a-1, ..., 1; an empty arange when a <= 0. *)
  Definition spectral_periodic_extension_jax (fm : vec A) (L : Z) : vec A :=
    let nphi := vlen fm in
    let k := L - nphi / 2 in
    let k' := L - (nphi + 1) / 2 in
    vapp (mkVec (Z.max 0 k) (fun i => vat fm ((- (k - i)) mod nphi)))
      (vapp fm (mkVec (Z.max 0 k') (fun i => vat fm (i mod nphi)))).
End Extension.

Section RingFFT.
  Context {A : Type} (zero : A) (add : A -> A -> A).
  (** np.fft.fft(x, norm="backward"), np.fft.rfft(np.real(x), norm="backward"),
      np.fft.ifft(x, norm="forward"), np.fft.irfft(x, n, norm="forward") *)
  Context (fft rfft ifft : vec A -> vec A) (irfft : vec A -> Z -> vec A).

  (** One ring of healpix_fft_numpy: s2fft/utils/healpix_ffts.py:210-224.
      [:-1] of the rfft drops the last of nphi//2+1 entries. *)
  Definition ring_fft_numpy (chunk : vec A) (nphi L : Z) (reality : bool) : result (vec A) :=
    let* fm_chunk :=
      if reality && (nphi =? 2 * L) then
        let r := rfft chunk in
        vassign (vconst nphi zero) (nphi / 2) nphi (vslice r 0 (vlen r - 1))
      else Ok (fftshift (fft chunk)) in
    if nphi =? 2 * L then Ok fm_chunk else spectral_periodic_extension zero fm_chunk nphi L.

  (** s2fft/utils/healpix_ffts.py:187-226 healpix_fft_numpy. The state of the loop is (index,
      ftm); assigning a row of the wrong length raises ValueError. *)
  Definition healpix_fft_numpy (f : vec A) (L nside : Z) (reality : bool)
    : result (vec (vec A)) :=
    let nt := 4 * nside - 1 in
    let ftm := vconst nt (vconst (2 * L) zero) in
    let* st := foldM (fun st t =>
        let '(index, ftm) := st in
        let* nphi := nphi_ring t nside in
        let* row := ring_fft_numpy (vslice f index (index + nphi)) nphi L reality in
        if negb (vlen row =? 2 * L) then Err ValueError else
        let* ftm := vwrite ftm t row in
        Ok (index + nphi, ftm))
      (zrange 0 nt) (0, ftm) in
    Ok (snd st).

  (** Lines 252-265: f_chunks_to_ftm_rows applied to one chunk (the code maps it over a batch
      of chunks of equal length with vmap). *)
  Definition ring_fft_jax (chunk : vec A) (nphi L : Z) (reality : bool) : vec A :=
    let fm_chunk :=
      if reality && (nphi =? 2 * L) then
        let r := rfft chunk in
        vapp (vconst (nphi / 2) zero) (vslice r 0 (vlen r - 1))
      else fftshift (fft chunk) in
    spectral_periodic_extension_jax fm_chunk L.

  (** s2fft/utils/healpix_ffts.py:229-291 healpix_fft_jax. jnp.stack of an empty list (line 278,
      nside = 1) raises ValueError. Lines 281-282: reshape((-1, nphi)) gives the equatorial
      chunks. *)
  Definition healpix_fft_jax (f : vec A) (L nside : Z) (reality : bool)
    : result (vec (vec A)) :=
    let '(polar, start_index, end_index) :=
      fold_left (fun st t =>
          let '(polar, s, e) := st in
          let nphi := 4 * (t + 1) in
          ((polar ++ [(ring_fft_jax (vslice f s (s + nphi)) nphi L reality,
                      ring_fft_jax (vslice f (e - nphi) e) nphi L reality)])%list, s + nphi, e - nphi))
        (zrange 0 (nside - 1)) ([], 0, 12 * nside ^ 2) in
    match polar with
    | [] => Err ValueError
    | p0 :: _ =>
        let rows := mkVec (Z.of_nat (List.length polar)) (fun t => nth (Z.to_nat t) polar p0) in
        let nphi := 4 * nside in
        let eq := vslice f start_index end_index in
        let eq_rows := mkVec (vlen eq / nphi)
          (fun r => ring_fft_jax (vslice eq (r * nphi) (r * nphi + nphi)) nphi L reality) in
        Ok (vapp (vmap fst rows) (vapp eq_rows (vrev (vmap snd rows))))
    end.

  (** s2fft/utils/healpix_ffts.py:335-371 healpix_ifft_numpy. Returns the caller's ftm after the
      call (rows are views, see spectral_folding) and the map. *)
  Definition healpix_ifft_numpy (ftm : vec (vec A)) (L nside : Z) (reality : bool)
    : result (vec (vec A) * vec A) :=
    let f := vconst (12 * nside ^ 2) zero in
    let* st := foldM (fun st t =>
        let '(index, ftm, f) := st in
        let* nphi := nphi_ring t nside in
        let* row := vread ftm t in
        let* rs := if nphi =? 2 * L then Ok (row, row) else spectral_folding add row nphi L in
        let '(row', fm_chunk) := rs in
        let* ftm := vwrite ftm t row' in
        let chunk :=
          if reality && (nphi =? 2 * L) then irfft (vslice fm_chunk (nphi / 2) (vlen fm_chunk)) nphi
          else ifft (ifftshift fm_chunk) in
        let* f := vassign f index (index + nphi) chunk in
        Ok (index + nphi, ftm, f))
      (zrange 0 (vlen ftm)) (0, ftm, f) in
    let '(_, ftm, f) := st in Ok (ftm, f).

  (** Lines 398-407: ftm_rows_to_f_chunks applied to one row. *)
  Definition ring_ifft_jax (row : vec A) (nphi L : Z) (reality : bool) : result (vec A) :=
    let* fm_chunk := if nphi =? 2 * L then Ok row else spectral_folding_jax add row nphi L in
    Ok (if reality && (nphi =? 2 * L) then irfft (vslice fm_chunk (nphi / 2) (vlen fm_chunk)) nphi
        else ifft (ifftshift fm_chunk)).

  (** s2fft/utils/healpix_ffts.py:374-423 healpix_ifft_jax: concatenation of the north polar
      chunks, the equatorial chunks and the south polar chunks (reversed processing order). *)
  Definition healpix_ifft_jax (ftm : vec (vec A)) (L nside : Z) (reality : bool)
    : result (vec A) :=
    let ring t nphi out :=
      let* row := vread ftm t in
      let* c := ring_ifft_jax row nphi L reality in Ok (vapp out c) in
    let* out := foldM (fun out t => ring t (4 * (t + 1)) out) (zrange 0 (nside - 1))
                  (mkVec 0 (fun _ => zero)) in
    let* out := foldM (fun out t => ring t (4 * nside) out) (zrange (nside - 1) (3 * nside)) out in
    foldM (fun out t => ring (- (t + 1)) (4 * (t + 1)) out) (rev (zrange 0 (nside - 1))) out.

  (** s2fft/utils/healpix_ffts.py:297-332 healpix_ifft, for the two CPU methods (the cuda and
      torch entries of the method table wrap other devices). Returns (ftm afterwards, map). *)
  Definition healpix_ifft (ftm : vec (vec A)) (L nside : Z) (method : string) (reality : bool)
    : result (vec (vec A) * vec A) :=
    if negb (2 * nside <=? L) then Err AssertionError
    else if streq method "numpy" then healpix_ifft_numpy ftm L nside reality
    else if streq method "jax" then
      let* f := healpix_ifft_jax ftm L nside reality in Ok (ftm, f)
    else Err ValueError.

  (** s2fft/utils/healpix_ffts.py:150-184 healpix_fft, CPU methods *)
  Definition healpix_fft (f : vec A) (L nside : Z) (method : string) (reality : bool)
    : result (vec (vec A)) :=
    if streq method "numpy" then healpix_fft_numpy f L nside reality
    else if streq method "jax" then healpix_fft_jax f L nside reality
    else Err ValueError.
End RingFFT.
