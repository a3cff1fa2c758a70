(** Model of the Price & McEwen recursion over all orders at once,
    s2fft/recursions/price_mcewen.py:377-643 (compute_all_slices, compute_all_slices_jax), over the
    reals with infinities and NaN. JAX clamps or drops indices out of range where the model raises. *)
From Coq Require Import Reals.
From Verif Require Import Lib.Py Lib.Vec Lib.Arr Lib.Ext Model.PriceMcEwen Model.OTF.
Open Scope string_scope.
Open Scope Z_scope.

(** dl_test[idx, :, lo:] = P[:, lo:] (lines 585-594) and, for the steps m >= 2 of half i,
    dl_test[idx] = where(indices >= L - m - 1, P, dl_test[idx]) (lines 617-623); the step m is read
    off the index idx = sind + sgn * m. dl_test has one row [theta, el] per index. *)
Definition slice_emit (pre : pm_pre) (L i : Z) (dl : vec plane) (idx lo rlo : Z) (P : plane) : result (vec plane) :=
  let m := if i =? 0 then idx else -1 - idx in
  let* old := vread dl idx in
  vwrite dl idx (fun j k =>
    if (slice_lo L lo <=? k) && ((m <? 2) || (L - m - 1 <=? pm_indices pre j k)) then P j k else old j k).

(** price_mcewen.py:501-643 compute_all_slices_jax; both halves run over m = 2, ..., L - 1 *)
Definition compute_all_slices_jax (th : theta_fn) (beta : vec R) (L spin : Z) (sampling : string) (forward : bool) (nside : option Z)
    (precomps : option pm_pre) : result (vec plane) :=
  let mm := - spin in
  let* pre := match precomps with
              | None => generate_precomputes_jax th L spin sampling nside forward 0 (Some beta)
              | Some p => Ok p end in
  let* _ := pre_fits pre beta L 0 in
  let* dl := pm_half_to L (slice_emit pre L 0) one_by_position pre beta L 0 mm 0 (@vconst plane (2 * L - 1) (fun _ _ => Fin 0)) in
  pm_half_to L (slice_emit pre L 1) one_by_position pre beta L 0 mm 1 dl.

(** The list precomps of compute_all_slices: the five arrays of generate_precomputes, or seven, with
    two more (offset, cs) after lrenorm and cp2 that are not read (lines 431-436). *)
Inductive pm_list : Type :=
| five_arrays : pm_pre -> pm_list
| seven_arrays : pm_pre -> ndarray R -> ndarray R -> pm_list.
(** lrenorm, offset, vsign, cpi, cp2, cs, indices = precomps *)
Definition unpack_seven (p : pm_list) : result pm_pre :=
  match p with five_arrays _ => Err ValueError | seven_arrays p _ _ => Ok p end.

(** price_mcewen.py:377-498 compute_all_slices. Without precomps it calls generate_precomputes with the
    angles as band-limit, the band-limit as spin and the integer - spin as the name of the sampling
    scheme, whose method lower does not exist. The in-place update of the caller's lrenorm (line 496)
    is left out. *)
Definition compute_all_slices (beta : vec R) (L spin : Z) (precomps : option pm_list) : result (vec plane) :=
  let mm := - spin in
  let* pre := match precomps with None => Err AttributeError | Some p => unpack_seven p end in
  let* _ := pre_fits pre beta L 0 in
  let* dl := pm_half_to L (slice_emit pre L 0) one_by_position pre beta L 0 mm 0 (@vconst plane (2 * L - 1) (fun _ _ => Fin 0)) in
  pm_half_to L (slice_emit pre L 1) one_by_position pre beta L 0 mm 1 dl.
