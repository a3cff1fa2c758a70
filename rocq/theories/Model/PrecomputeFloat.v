(** Model of the precomputed inverse transform in rounded arithmetic: the kernel of
    s2fft/precompute_transforms/construct.py built with the Risbo recursion and the function
    inverse_transform of s2fft/precompute_transforms/spherical.py (numpy, reality=False), for the
    schemes other than HEALPix. Every operation on numbers is one operation of the record of
    rounded operations (see Model/RisboFloat.v for what is left out). The fast Fourier transforms
    are arguments: the code calls numpy's, whose operations are not modelled. np.einsum does not
    document the order in which it adds: the order is an argument as well (adding the first term
    to the initial 0 is exact and left out). *)
From Coq Require Import Reals.
From Coquelicot Require Import Complex.
From Verif Require Import Lib.Py Lib.Vec Lib.Sums Lib.Cplx Lib.Arr Model.Index Model.Samples Model.Risbo Model.RisboFloat
  Model.Resampling Model.Spherical Model.Precompute.
Open Scope string_scope.
Open Scope Z_scope.

(** x * y and x + y of two complex numbers *)
Definition cf_mul (A : arith) (x y : C) : C :=
  (fadd A (fmul A (fst x) (fst y)) (- fmul A (snd x) (snd y))%R, fadd A (fmul A (fst x) (snd y)) (fmul A (snd x) (fst y))).
Definition cf_add (A : arith) (x y : C) : C := (fadd A (fst x) (fst y), fadd A (snd x) (snd y)).

(** An order of summation: which partial sums are added. *)
Inductive order := Term (i : Z) | Plus (a b : order).
Fixpoint terms (o : order) : list Z := match o with Term i => [i] | Plus a b => terms a ++ terms b end.
Fixpoint cf_sum (A : arith) (o : order) (x : Z -> C) : C :=
  match o with Term i => x i | Plus a b => cf_add A (cf_sum A a x) (cf_sum A b x) end.
(** from left to right *)
Fixpoint in_turn_from (o : order) (l : list Z) : order := match l with [] => o | i :: l => in_turn_from (Plus o (Term i)) l end.
Definition in_turn (n : Z) : order := in_turn_from (Term 0) (zrange 1 n).

(** ** construct.py *)
(** delta[:, ms:, c] of a stack of (2L-1) x (2L-1) planes, construct.py:111 *)
Definition pf_col (dls : list (ndarray R)) (L ms c : Z) : result (ndarray R) :=
  match norm_index (2 * L - 1) c with
  | None => Err IndexError
  | Some c' => Ok (mat (Z.of_nat (List.length dls)) (slice_len (2 * L - 1) ms (2 * L - 1))
      (fun t i => at2 (nth (Z.to_nat t) dls (zeros 0%R [])) (slice_lo (2 * L - 1) ms + i) c'))
  end.
(** construct.py:107-111: rings that are not equidistant *)
Definition pf_direct (A : arith) (ths : vec R) (L spin ms md : Z) : result (ndarray R) :=
  let betas := map (vat ths) (zrange 0 (vlen ths)) in
  let* st := foldM (fun st el =>
      let* delta := rf_full_vec A (fst st) betas L el in
      let* c := pf_col delta L ms (L - 1 - spin) in
      let* dl := mid_set (snd st) el c in
      Ok (delta, dl))
    (zrange 0 L) (map (fun _ => zeros 0%R [2 * L - 1; 2 * L - 1]) betas, zeros 0%R [vlen ths; L; md]) in
  Ok (snd st).

(** the transforms and powers numpy computes: np.fft.ifft(x, norm="forward"),
    np.fft.irfft(x, n=n, norm="forward") and 1j ** k *)
Record ffts := mkFfts { f_ifft : vec C -> vec C; f_irfft : vec C -> Z -> vec R; f_ipow : Z -> C }.

(** np.exp(1j * m_value * thetas[0]): the real part of the exponent is 0, construct.py:137 *)
Definition pf_exp (A : arith) (k : Z) (x : R) : C := let y := fmul A (IZR k) x in (fcos A y, fsin A y).
(** construct.py:131-137; the three factors are multiplied from the left *)
Definition pf_slice (A : arith) (F : ffts) (delta : ndarray R) (th0 : R) (L spin ms md : Z) : result (ndarray C) :=
  match norm_index (2 * L - 1) (L - 1 - spin) with
  | None => Err IndexError
  | Some c =>
      let temp := mat (2 * L - 1) md (fun a i =>
        cf_mul A (cf_mul A (RtoC (at2 delta a (ms + i)%Z)) (RtoC (at2 delta a c))) (f_ipow F (- spin - (ms + i - (L - 1))))) in
      Ok (mat (2 * L - 1) md (fun a i => cf_mul A (at2 temp a i) (pf_exp A (a - (L - 1)) th0)))
  end.
(** construct.py:125-140: equidistant rings *)
Definition pf_fourier (A : arith) (F : ffts) (sampling : string) (ths : vec R) (L spin ms md : Z) : result (ndarray R) :=
  let nsamps := kernel_nsamps sampling (vlen ths) in
  let* st := foldM (fun st el =>
      let* delta := rf_full A (fst st) (fdiv A (fpi A) 2%R) L el in
      let* th0 := vread ths 0 in
      let* temp := pf_slice A F delta th0 L spin ms md in
      let half := slice2 temp (L - 1) (dim0 temp) 0 (dim1 temp) in
      let* dl := mid_set (snd st) el (mat (vlen ths) (dim1 half) (fun t i => vat (f_irfft F (col half i) nsamps) t)) in
      Ok (delta, dl))
    (zrange 0 L) (zeros 0%R [2 * L - 1; 2 * L - 1], zeros 0%R [vlen ths; L; md]) in
  Ok (snd st).

(** construct.py:143: np.sqrt((2 * np.arange(L) + 1) / (4 * np.pi)), and the product with it *)
Definition pf_elfactor (A : arith) (el : Z) : R := fsqrt A (fdiv A (IZR (2 * el + 1)) (fmul A 4%R (fpi A))).
Definition pf_normalise (A : arith) (dl : ndarray R) (L : Z) : result (ndarray R) :=
  if dim1 dl =? L then Ok (arr3 (dim0 dl) (dim1 dl) (dim2 dl) (fun t l m => fmul A (at3 dl t l m) (pf_elfactor A l)))
  else Err ValueError.

(** sampling/s2_samples.py:195-293 thetas and t2theta for the equidistant schemes, from left to
    right; the integers are exact. The Gauss-Legendre colatitudes are given: the code takes them
    from numpy. *)
Definition pf_thetas (A : arith) (sampling : string) (L : Z) (gl : vec R) : result (vec R) :=
  if streq (lower sampling) "gl" then Ok gl
  else if streq (lower sampling) "mw" then Ok (mkVec L (fun t => fdiv A (fmul A (IZR (2 * t + 1)) (fpi A)) (IZR (2 * L - 1))))
  else if streq (lower sampling) "mwss" then Ok (mkVec (L + 1) (fun t => fdiv A (fmul A (IZR (2 * t)) (fpi A)) (IZR (2 * L))))
  else if streq (lower sampling) "dh" then Ok (mkVec (2 * L) (fun t => fdiv A (fmul A (IZR (2 * t + 1)) (fpi A)) (IZR (4 * L))))
  else Err OtherError.

(** construct.py:17-161 spin_spherical_kernel(L, spin, False, sampling, forward=False,
    recursion="risbo") with the colatitudes ths of samples.thetas. The phases of HEALPix are not
    modelled: that scheme raises OtherError here. *)
Definition pf_kernel (A : arith) (F : ffts) (sampling : string) (ths : vec R) (L spin : Z) : result (ndarray R) :=
  let* dl := (if streq (lower sampling) "gl" then pf_direct A ths L spin 0 (2 * L - 1)
              else if str_in (lower sampling) ["mw"; "mwss"; "dh"] then pf_fourier A F sampling ths L spin 0 (2 * L - 1)
              else Err OtherError) in
  pf_normalise A dl L.

(** ** spherical.py *)
(** np.einsum("...tlm, ...lm -> ...tm", kernel, flm): the real kernel is converted to complex numbers *)
Definition pf_einsum (A : arith) (o : order) (k : ndarray R) (a : ndarray C) : result (ndarray C) :=
  if (dim1 k =? dim0 a) && (dim2 k =? dim1 a)
  then Ok (mat (dim0 k) (dim2 k) (fun t m => cf_sum A o (fun l => cf_mul A (RtoC (at3 k t l m)) (at2 a l m))))
  else Err ValueError.
(** spherical.py:87-149 inverse_transform, with reality=False *)
Definition pf_inverse (A : arith) (F : ffts) (o : order) (flm : ndarray C) (kernel : ndarray R) (L : Z) (sampling : string)
    (spin : Z) : result (ndarray C) :=
  let mo := m_offset sampling in
  let* sh := ftm_shape (Some L) sampling None in
  let ftm := zeros (RtoC 0) sh in
  let* e := pf_einsum A o kernel (slice2 flm 0 (dim0 flm) 0 (dim1 flm)) in
  let* ftm := slice2_set ftm 0 (dim0 ftm) mo (dim1 ftm) e in
  let ftm := mscal (fun z => cf_mul A z (RtoC (m1 spin))) ftm in
  Ok (map_rows (fun r => f_ifft F (ifftshift r)) ftm).
