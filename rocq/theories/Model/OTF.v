(** Model of the on-the-fly latitudinal steps s2fft/transforms/otf_recursions.py, over the reals with
    infinities and NaN. The option spmd (several devices) is in Model/Spmd.v. JAX clamps indices out of
    range where the model raises. *)
From Coq Require Import Reals.
From Coquelicot Require Import Complex.
From Verif Require Import Lib.Py Lib.Vec Lib.Arr Lib.Ext Lib.Cplx Model.Index Model.Samples Model.Grids Model.Turok Model.Spherical
  Model.PriceMcEwen.
Open Scope string_scope.
Open Scope Z_scope.

(** lamb of step m: (el + 1)(1 - c) + (m - L + el + 1) c - half_slice, divided by s.
    otf_recursions.py:104-109 (m = 1), 140-145, 268-273, 311-316, 514-519, 554-559, 695-700, 755-760 *)
Definition pm_lamb (beta : vec R) (L L0 mm i m : Z) : plane := fun j k =>
  let el := L0 + k in
  let c := cos (vat beta j) in
  let s := sin (vat beta j) in
  emul (Fin (IZR (el + 1) * (1 - c) + IZR (m - L + el + 1) * c - IZR (half_slice mm i el))) (ediv (Fin 1) (Fin s)).

(** Where dl_entry is set to 1 at step m: column -(m + 1) of an array with L columns, of which the
    last L - L_lower are kept (otf_recursions.py:153, 331, 567), or the columns with
    indices == L - 1 - m (line 768). *)
Definition one_by_position (L L0 : Z) (pre : pm_pre) (m j k : Z) : bool := k =? L - (m + 1) - L0.
Definition one_by_index (L L0 : Z) (pre : pm_pre) (m j k : Z) : bool := pm_indices pre j k =? L - 1 - m.

(** One half i of the recursion, otf_recursions.py:95-169, 259-411, 503-586, 687-857; the numpy functions
    copy lrenorm before updating it (lines 92-93, 500-501). The four functions differ in
    what they do with the factors of each order: [emit acc idx lo rlo P] receives the index idx of the
    order, the first column lo of the factors P used and the first row rlo of the coefficients. The
    loop runs over m = 2, ..., stop - 1. *)
Definition pm_half_to {A} (stop : Z) (emit : A -> Z -> Z -> Z -> plane -> result A)
    (one : Z -> Z -> pm_pre -> Z -> Z -> Z -> bool) (pre : pm_pre) (beta : vec R) (L L0 mm i : Z) (acc : A) : result A :=
  let nl := L - L0 in
  let lind := L - 1 - L0 in
  let sind := if i =? 0 then 0 else -1 in
  let sg := if i =? 0 then 1 else -1 in
  let* cp0 := vread (pm_cpi pre) 0 in
  let it0 : plane := fun _ _ => Fin 1 in
  let it1 : plane := fun j k => if slice_lo nl lind <=? k
                                then emul (cp0 k) (emul (it0 j k) (pm_lamb beta L L0 mm i 1 j k)) else Fin 1 in
  let lr := pm_lrenorm pre i in
  let factor (d : plane) (v : Z -> R) (lr : plane) : plane := fun j k => emul (emul (d j k) (Fin (v k))) (eexp (lr j k)) in
  let* v0 := vread (pm_vsign pre) sind in
  let* acc := emit acc sind lind (lind + L0) (factor it0 v0 lr) in
  let* v1 := vread (pm_vsign pre) (sind + sg) in
  let* acc := emit acc (sind + sg) (lind - 1) (lind - 1 + L0) (factor it1 v1 lr) in
  let dl : plane := fun _ _ => Fin 0 in
  let* st := foldM (fun st m =>
      let '(acc, dl, it0, it1, lr) := st in
      let index j k := L - m - 1 <=? pm_indices pre j k in
      let* cp := vread (pm_cpi pre) (m - 1) in
      let* cq := vread (pm_cp2 pre) (m - 1) in
      let* v := vread (pm_vsign pre) (sind + sg * m) in
      let dl : plane := fun j k =>
        if index j k
        then esub (emul (cp k) (emul (it1 j k) (pm_lamb beta L L0 mm i m j k))) (emul (cq k) (it0 j k))
        else dl j k in
      let dl : plane := fun j k => if one L L0 pre m j k then Fin 1 else dl j k in
      let* acc := emit acc (sind + sg * m) 0 L0 (factor dl v lr) in
      let bigi j k := ediv (Fin 1) (eabs (dl j k)) in
      let lbig j k := elog (eabs (dl j k)) in
      let it0' : plane := fun j k => if index j k then emul (bigi j k) (it1 j k) else it0 j k in
      let it1' : plane := fun j k => if index j k then emul (bigi j k) (dl j k) else it1 j k in
      let lr' : plane := fun j k => if index j k then eadd (lr j k) (lbig j k) else lr j k in
      Ok (acc, dl, it0', it1', lr'))
    (zrange 2 stop) (acc, dl, it0, it1, lr) in
  let '(acc, _, _, _, _) := st in Ok acc.
(** the latitudinal steps: range(2, L - 1 + i) *)
Definition pm_half {A} (emit : A -> Z -> Z -> Z -> plane -> result A) one pre beta L L0 mm i (acc : A) : result A :=
  pm_half_to (L - 1 + i) emit one pre beta L L0 mm i acc.

(** for i in range(2): if not (reality and i == 0) *)
Definition pm_halves {A} (emit : Z -> A -> Z -> Z -> Z -> plane -> result A) one pre beta L L0 mm (reality : bool) (acc : A) : result A :=
  let* acc := (if reality then Ok acc else pm_half (emit 0) one pre beta L L0 mm 0 acc) in
  pm_half (emit 1) one pre beta L L0 mm 1 acc.

(** Arrays of precomputed coefficients of other extents do not broadcast *)
Definition pre_fits (pre : pm_pre) (beta : vec R) (L L0 : Z) : result unit :=
  if (pm_nt pre =? vlen beta) && (pm_nl pre =? L - L0) then Ok tt else Err ValueError.

(** numpy's broadcasting of two lengths *)
Definition blen (a b : Z) : result Z :=
  if a =? b then Ok a else if a =? 1 then Ok b else if b =? 1 then Ok a else Err ValueError.
Definition bidx (n i : Z) : Z := if n =? 1 then 0 else i.

(** a[:, idx] = v *)
Definition col_set {T} (a : ndarray T) (idx : Z) (v : vec T) : result (ndarray T) :=
  match norm_index (dim1 a) idx with
  | None => Err IndexError
  | Some c => if vlen v =? dim0 a then Ok (mat (dim0 a) (dim1 a) (fun r c' => if c' =? c then vat v r else at2 a r c'))
              else Err ValueError
  end.

(** ftm[:, idx + m_offset] = np.nansum(P[:, lo:] * flm[rlo:, idx], axis=-1): otf_recursions.py:118-124, 127-133, 156-162; 285-303, 334-342 *)
Definition inv_emit (flm : ndarray C) (nt nl mo : Z) (ftm : ndarray ecx) (idx lo rlo : Z) (P : plane) : result (ndarray ecx) :=
  match norm_index (dim1 flm) idx with
  | None => Err IndexError
  | Some c =>
      let kn := slice_len nl lo nl in
      let rn := slice_len (dim0 flm) rlo (dim0 flm) in
      let* n := blen kn rn in
      let v j := nansum (zrange 0 n) (fun i =>
        escale (P j (slice_lo nl lo + bidx kn i)) (at2 flm (slice_lo (dim0 flm) rlo + bidx rn i) c)) in
      col_set ftm (idx + mo) (mkVec nt v)
  end.

(** m_offset = 1 if sampling in ["mwss", "healpix"] and i == 0 else 0 (case-sensitive), e.g. line 97 *)
Definition half_offset (sampling : string) (i : Z) : Z :=
  if str_in sampling ["mwss"; "healpix"] && (i =? 0) then 1 else 0.

(** otf_recursions.py:15-171 inverse_latitudinal_step *)
Definition inverse_latitudinal_step (th : theta_fn) (flm : ndarray C) (beta : vec R) (L spin : Z) (nside : option Z) (sampling : string)
    (reality : bool) (precomps : option pm_pre) (L0 : Z) : result (ndarray ecx) :=
  let* sh := ftm_shape (Some L) sampling nside in
  let* pre := match precomps with
              | None => generate_precomputes th L spin sampling nside false L0
              | Some p => Ok p end in
  let* _ := pre_fits pre beta L L0 in
  pm_halves (fun i => inv_emit flm (vlen beta) (L - L0) (half_offset sampling i)) one_by_position pre beta L L0 (- spin) reality
    (zeros (fin (RtoC 0)) sh).

(** The rows of the poles: a[r] = 0; a[r, c] = v *)
Definition pole_set (a : ndarray ecx) (r c : Z) (v : C) : result (ndarray ecx) :=
  match norm_index (dim0 a) r, norm_index (dim1 a) c with
  | Some r', Some c' => Ok (mat (dim0 a) (dim1 a) (fun i j =>
      if i =? r' then if j =? c' then fin v else fin (RtoC 0) else at2 a i j))
  | _, _ => Err IndexError
  end.
(** np.nansum((-1) ** abs(np.arange(L0, L) - spin) * flm[L0:, L - 1 + spin]) and
    np.nansum(flm[L0:, L - 1 - spin]); flm holds numbers, so nothing is dropped. The row slice has
    L - L0 rows (broadcasting of other lengths is not modelled). *)
Definition south_pole (flm : ndarray C) (L spin L0 : Z) : result C :=
  let* c := match norm_index (dim1 flm) (L - 1 + spin) with Some c => Ok c | None => Err IndexError end in
  if negb (slice_len (dim0 flm) L0 (dim0 flm) =? L - L0) then Err ValueError
  else Ok (Sums.csum (zrange L0 L) (fun el => (RtoC (msign (Z.abs (el - spin))) * at2 flm el c)%C)).
Definition north_pole (flm : ndarray C) (L spin L0 : Z) : result C :=
  let* c := match norm_index (dim1 flm) (L - 1 - spin) with Some c => Ok c | None => Err IndexError end in
  Ok (Sums.csum (zrange (slice_lo (dim0 flm) L0) (dim0 flm)) (fun el => at2 flm el c)).
(** m_offset = 1 if sampling.lower() in ["mwss", "healpix"] else 0, e.g. otf_recursions.py:413, spherical.py:156 *)
Definition l_offset (sampling : string) : Z := if str_in (lower sampling) ["mwss"; "healpix"] then 1 else 0.
(** otf_recursions.py:412-428 = transforms/spherical.py:175-184 *)
Definition set_poles (ftm : ndarray ecx) (flm : ndarray C) (L spin : Z) (sampling : string) (L0 : Z) : result (ndarray ecx) :=
  let mo := l_offset sampling in
  let* ftm := (if str_in (lower sampling) ["mw"; "mwss"]
               then let* v := south_pole flm L spin L0 in pole_set ftm (-1) (L - 1 + spin + mo) v else Ok ftm) in
  if streq (lower sampling) "mwss" then let* v := north_pole flm L spin L0 in pole_set ftm 0 (L - 1 - spin + mo) v
  else Ok ftm.

(** otf_recursions.py:174-429 inverse_latitudinal_step_jax *)
Definition inverse_latitudinal_step_jax (th : theta_fn) (flm : ndarray C) (beta : vec R) (L spin : Z) (nside : option Z) (sampling : string)
    (reality : bool) (precomps : option pm_pre) (L0 : Z) : result (ndarray ecx) :=
  let m_count := if str_in (lower sampling) ["mwss"; "healpix"] then 2 * L else 2 * L - 1 in
  let* pre := match precomps with
              | None => generate_precomputes_jax th L spin sampling nside false L0 (Some beta)
              | Some p => Ok p end in
  let* _ := pre_fits pre beta L L0 in
  let* ftm := pm_halves (fun i => inv_emit flm (vlen beta) (L - L0) (half_offset sampling i)) one_by_position pre beta L L0 (- spin) reality
    (zeros (fin (RtoC 0)) [vlen beta; m_count]) in
  set_poles ftm flm L spin sampling L0.

(** flm[rlo:, idx] = np.nansum(np.einsum("tl,t->tl", P[:, lo:], ftm[:, idx + m_offset]), axis=-2):
    otf_recursions.py:528-537, 540-549, 570-579; 712-738, 771-781 *)
Definition fwd_emit (ftm : ndarray C) (nt nl mo : Z) (flm : ndarray ecx) (idx lo rlo : Z) (P : plane) : result (ndarray ecx) :=
  match norm_index (dim1 ftm) (idx + mo), norm_index (dim1 flm) idx with
  | Some cf, Some c =>
      let kn := slice_len nl lo nl in
      let rn := slice_len (dim0 flm) rlo (dim0 flm) in
      let rl := slice_lo (dim0 flm) rlo in
      if negb (dim0 ftm =? nt) then Err ValueError
      else if (kn =? rn) || (kn =? 1)
      then Ok (mat (dim0 flm) (dim1 flm) (fun r c' =>
             if (c' =? c) && (rl <=? r) && (r <? rl + rn)
             then nansum (zrange 0 nt) (fun j => escale (P j (slice_lo nl lo + bidx kn (r - rl))) (at2 ftm j cf))
             else at2 flm r c'))
      else Err ValueError
  | _, _ => Err IndexError
  end.

(** otf_recursions.py:432-588 forward_latitudinal_step *)
Definition forward_latitudinal_step (th : theta_fn) (ftm : ndarray C) (beta : vec R) (L spin : Z) (nside : option Z) (sampling : string)
    (reality : bool) (precomps : option pm_pre) (L0 : Z) : result (ndarray ecx) :=
  let* pre := match precomps with
              | None => generate_precomputes th L spin sampling nside true L0
              | Some p => Ok p end in
  let* _ := pre_fits pre beta L L0 in
  pm_halves (fun i => fwd_emit ftm (vlen beta) (L - L0) (half_offset sampling i)) one_by_position pre beta L L0 (- spin) reality
    (zeros (fin (RtoC 0)) (flm_shape L)).

(** otf_recursions.py:877-886: flm[L_lower:, L - 1 + spin] += (-1) ** abs(el - spin) * ftm_in[-1, ...] and
    flm[L_lower:, L - 1 - spin] += ftm_in[0, ...] *)
Definition pole_add (flm : ndarray ecx) (c L0 : Z) (v : Z -> C) : result (ndarray ecx) :=
  match norm_index (dim1 flm) c with
  | None => Err IndexError
  | Some c' => Ok (mat (dim0 flm) (dim1 flm) (fun el j =>
      if (j =? c') && (slice_lo (dim0 flm) L0 <=? el) then cadd (at2 flm el j) (fin (v el)) else at2 flm el j))
  end.
Definition add_south (flm : ndarray ecx) (ftm : ndarray C) (L spin mo L0 : Z) : result (ndarray ecx) :=
  let* x := aread ftm [-1; L - 1 + spin + mo] in
  pole_add flm (L - 1 + spin) L0 (fun el => (RtoC (msign (Z.abs (el - spin))) * x)%C).
Definition add_north (flm : ndarray ecx) (ftm : ndarray C) (L spin mo L0 : Z) : result (ndarray ecx) :=
  let* x := aread ftm [0; L - 1 - spin + mo] in
  pole_add flm (L - 1 - spin) L0 (fun _ => x).

(** otf_recursions.py:591-886 forward_latitudinal_step_jax. The loop works on flm[L_lower:] and is
    written back there; the model assigns to these rows of flm directly. *)
Definition forward_latitudinal_step_jax (th : theta_fn) (ftm_in : ndarray C) (beta_in : vec R) (L spin : Z) (nside : option Z) (sampling : string)
    (reality : bool) (precomps : option pm_pre) (L0 : Z) : result (ndarray ecx) :=
  let '(ftm, beta) :=
    if streq (lower sampling) "mwss" then (slice2 ftm_in 1 (-1) 0 (dim1 ftm_in), vslice beta_in 1 (-1))
    else if streq (lower sampling) "mw" then (slice2 ftm_in 0 (-1) 0 (dim1 ftm_in), vslice beta_in 0 (-1))
    else (ftm_in, beta_in) in
  let* pre := match precomps with
              | None => generate_precomputes_jax th L spin sampling nside true L0 (Some beta)
              | Some p => Ok p end in
  let* _ := pre_fits pre beta L L0 in
  let* flm := pm_halves (fun i => fwd_emit ftm (vlen beta) (L - L0) (half_offset sampling i)) one_by_index pre beta L L0 (- spin) reality
    (zeros (fin (RtoC 0)) (flm_shape L)) in
  let mo := l_offset sampling in
  let* flm := (if str_in (lower sampling) ["mw"; "mwss"] then add_south flm ftm_in L spin mo L0 else Ok flm) in
  if streq (lower sampling) "mwss" then add_north flm ftm_in L spin mo L0 else Ok flm.
