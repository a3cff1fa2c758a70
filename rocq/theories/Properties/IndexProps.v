(** C01-C05: harmonic and Wigner coefficient indexing. Entries of type [A] are arbitrary, so
    the statements hold for complex doubles, floats, or anything else that can be stored. *)
From Verif Require Import Lib.Py Model.Index Spec.IndexSpec
  Proofs.IndexProofs Proofs.IndexFastProofs.
Open Scope Z_scope.

(** C01: (el,m) <-> 1D index is a bijection onto 0..L^2-1, with explicit inverse, and
    ncoeff counts it. *)
Theorem C01_elm2ind_bijection : forall L, 1 <= L ->
  bijection2 (valid_lm L) elm2ind (ncoeff L) /\ ncoeff L = L * L.
Proof. intros L HL. rewrite ncoeff_eq. split; [exact (elm2ind_bijection L HL)|reflexivity]. Qed.

Theorem C01_ind2elm_left_inverse : forall el m, 0 <= el -> - el <= m <= el ->
  ind2elm (elm2ind el m) = (el, m).
Proof. exact ind2elm_elm2ind. Qed.

Theorem C01_ind2elm_right_inverse : forall L k, 1 <= L -> 0 <= k < L * L ->
  valid_lm L (fst (ind2elm k)) (snd (ind2elm k)) /\
  elm2ind (fst (ind2elm k)) (snd (ind2elm k)) = k.
Proof. exact ind2elm_valid. Qed.

Example C01_example : valid_lm 4 3 (-2) /\ elm2ind 3 (-2) = 10 /\ ind2elm 10 = (3, -2).
Proof. unfold valid_lm. repeat split; try lia; reflexivity. Qed.

(** C02: 1D -> 2D -> 1D is the identity; each coefficient lands at row el, column L-1+m, and
    the rest of the 2D array is zero. *)
Theorem C02_1d_to_2d_places_coefficients : forall (A : Type) (zero : A) (f : ndarray A) L,
  1 <= L -> shape f = [L * L] ->
  exists o, flm_1d_to_2d zero f L = Ok o /\ shape o = [L; 2 * L - 1] /\
    (forall el m, valid_lm L el m -> get o [el; L - 1 + m] = get f [el * el + el + m]) /\
    triangular zero L o.
Proof.
  intros A zero f L HL Hs. destruct (flm_1d_to_2d_spec zero f L HL Hs) as (o & E & S1 & G & T).
  exists o. repeat split; auto. intros el m Hv. rewrite (G el m Hv). unfold elm2ind.
  do 2 f_equal. ring.
Qed.

Theorem C02_roundtrip_1d_2d_1d : forall (A : Type) (zero : A) (f : ndarray A) L,
  1 <= L -> shape f = [L * L] ->
  exists g h, flm_1d_to_2d zero f L = Ok g /\ flm_2d_to_1d zero g L = Ok h /\ arr_eq h f.
Proof. exact (fun A zero => @roundtrip_1d A zero). Qed.

(** 2D -> 1D -> 2D keeps every coefficient, clears the rest, and is the identity exactly on
    arrays that hold zero outside the triangle. *)
Theorem C02_roundtrip_2d_1d_2d : forall (A : Type) (zero : A) (f : ndarray A) L,
  1 <= L -> shape f = [L; 2 * L - 1] ->
  exists g h, flm_2d_to_1d zero f L = Ok g /\ flm_1d_to_2d zero g L = Ok h /\
    shape h = [L; 2 * L - 1] /\
    (forall el m, valid_lm L el m -> get h [el; L - 1 + m] = get f [el; L - 1 + m]) /\
    triangular zero L h /\ (arr_eq h f <-> triangular zero L f).
Proof. exact (fun A zero => @roundtrip_2d A zero). Qed.

Theorem C02_dimension_errors : forall (A : Type) (zero : A) (f : ndarray A) L,
  (List.length (shape f) <> 2%nat -> flm_2d_to_1d zero f L = Err ValueError) /\
  (List.length (shape f) <> 1%nat -> flm_1d_to_2d zero f L = Err ValueError).
Proof. intros; split; [apply flm_2d_to_1d_error|apply flm_1d_to_2d_error]. Qed.

Definition ex1d : ndarray Z := mkArr [9] (fun i => match i with [k] => k + 1 | _ => 0 end).
Example C02_example :
  match flm_1d_to_2d 0 ex1d 3 with
  | Ok g => map (fun r => map (fun c => get g [r; c]) [0; 1; 2; 3; 4]) [0; 1; 2]
            = [[0; 0; 1; 0; 0]; [0; 2; 3; 4; 0]; [5; 6; 7; 8; 9]]
  | Err _ => False
  end.
Proof. vm_compute. reflexivity. Qed.

(** C03: the vectorised reindexing functions return the same arrays as the loops. *)
Theorem C03_1d_to_2d_fast : forall (A : Type) (zero : A) (f : ndarray A) L,
  1 <= L -> shape f = [L * L] ->
  exists g h, flm_1d_to_2d zero f L = Ok g /\ flm_1d_to_2d_fast zero f L = Ok h /\ arr_eq h g.
Proof. exact (fun A zero => @flm_1d_to_2d_fast_eq A zero). Qed.

Theorem C03_2d_to_1d_fast : forall (A : Type) (zero : A) (f : ndarray A) L,
  1 <= L -> shape f = [L; 2 * L - 1] ->
  exists g, flm_2d_to_1d zero f L = Ok g /\ arr_eq (flm_2d_to_1d_fast zero f L) g.
Proof. exact (fun A zero => @flm_2d_to_1d_fast_eq A zero). Qed.

Theorem C03_hp_to_2d_fast : forall (A : Type) (zero : A) (neg conj : A -> A) (f : ndarray A) L,
  1 <= L -> shape f = [L * (L + 1) / 2] ->
  exists g h, flm_hp_to_2d zero neg conj f L = Ok g /\
    flm_hp_to_2d_fast zero neg conj f L = Ok h /\ arr_eq h g.
Proof. exact (fun A zero neg conj => @flm_hp_to_2d_fast_eq A zero neg conj). Qed.

Theorem C03_2d_to_hp_fast : forall (A : Type) (zero : A) (f : ndarray A) L,
  1 <= L -> shape f = [L; 2 * L - 1] ->
  exists g, flm_2d_to_hp zero f L = Ok g /\ arr_eq (flm_2d_to_hp_fast zero f L) g.
Proof. exact (fun A zero => @flm_2d_to_hp_fast_eq A zero). Qed.

Example C03_example :
  match flm_hp_to_2d_fast 0 Z.opp (fun x => 10 * x) 
          (mkArr [6] (fun i => match i with [k] => k + 1 | _ => 0 end)) 3 with
  | Ok g => map (fun r => map (fun c => get g [r; c]) [0; 1; 2; 3; 4]) [0; 1; 2]
            = [[0; 0; 1; 0; 0]; [0; -40; 2; 4; 0]; [60; -50; 3; 5; 6]]
  | Err _ => False
  end.
Proof. vm_compute. reflexivity. Qed.

(** C04: healpy (m-major, m >= 0) ordering. *)
Theorem C04_hp_getidx_bijection : forall L, 1 <= L ->
  bijection2 (valid_lm_pos L) (hp_getidx L) (L * (L + 1) / 2).
Proof. exact hp_getidx_bijection. Qed.

(** Within an order m the degrees are consecutive, and order m+1 follows order m: this is
    healpy's layout (independent of the closed formula). *)
Theorem C04_hp_layout : forall L el m, valid_lm_pos L el m ->
  hp_getidx L 0 0 = 0 /\
  (el + 1 < L -> hp_getidx L (el + 1) m = hp_getidx L el m + 1) /\
  (m + 1 < L -> hp_getidx L (m + 1) (m + 1) = hp_getidx L (L - 1) m + 1).
Proof.
  intros L el m Hv. pose proof (hp_getidx_eq L el m). pose proof (hp_getidx_eq L (el + 1) m).
  pose proof (hp_getidx_eq L 0 0).
  pose proof (hp_getidx_eq L (m + 1) (m + 1)). pose proof (hp_getidx_eq L (L - 1) m).
  repeat split; lia.
Qed.

Theorem C04_hp_to_2d : forall (A : Type) (zero : A) (neg conj : A -> A) (f : ndarray A) L,
  1 <= L -> shape f = [L * (L + 1) / 2] ->
  exists o, flm_hp_to_2d zero neg conj f L = Ok o /\ shape o = [L; 2 * L - 1] /\
    (forall el m, valid_lm_pos L el m -> get o [el; L - 1 + m] = get f [hp_getidx L el m]) /\
    real_symmetric neg conj L o /\ triangular zero L o.
Proof. exact (fun A zero neg conj => @flm_hp_to_2d_spec A zero neg conj). Qed.

Theorem C04_2d_to_hp : forall (A : Type) (zero : A) (f : ndarray A) L,
  1 <= L -> shape f = [L; 2 * L - 1] ->
  exists o, flm_2d_to_hp zero f L = Ok o /\ shape o = [L * (L + 1) / 2] /\
    forall el m, valid_lm_pos L el m -> get o [hp_getidx L el m] = get f [el; L - 1 + m].
Proof. exact (fun A zero => @flm_2d_to_hp_spec A zero). Qed.

Theorem C04_roundtrip_hp : forall (A : Type) (zero : A) (neg conj : A -> A) (f : ndarray A) L,
  1 <= L -> shape f = [L * (L + 1) / 2] ->
  exists g h, flm_hp_to_2d zero neg conj f L = Ok g /\ flm_2d_to_hp zero g L = Ok h /\ arr_eq h f.
Proof. exact (fun A zero neg conj => @roundtrip_hp A zero neg conj). Qed.

(** Lossless on 2D arrays exactly when they are the coefficients of a real signal. *)
Theorem C04_roundtrip_2d : forall (A : Type) (zero : A) (neg conj : A -> A) (f : ndarray A) L,
  1 <= L -> shape f = [L; 2 * L - 1] ->
  exists g h, flm_2d_to_hp zero f L = Ok g /\ flm_hp_to_2d zero neg conj g L = Ok h /\
    (arr_eq h f <-> triangular zero L f /\ real_symmetric neg conj L f).
Proof. exact (fun A zero neg conj => @roundtrip_2d_hp A zero neg conj). Qed.

Theorem C04_lm2lm_hp : forall (A : Type) (zero : A) (f : ndarray A) L,
  1 <= L -> shape f = [L * L] ->
  exists g h k, flm_1d_to_2d zero f L = Ok g /\ flm_2d_to_hp zero g L = Ok h /\
    lm2lm_hp zero f L = Ok k /\ arr_eq h k.
Proof. exact (fun A zero => @lm2lm_hp_compose A zero). Qed.

Example C04_example : map (fun p => hp_getidx 3 (fst p) (snd p))
    [(0, 0); (1, 0); (2, 0); (1, 1); (2, 1); (2, 2)] = [0; 1; 2; 3; 4; 5].
Proof. reflexivity. Qed.

(** Finding: flm_2d_to_hp documents a ValueError for a non-2D input, but tests its own output
    array instead, so a 1D input fails with an IndexError from the reads. *)
Theorem C04_2d_to_hp_dimension_check_refuted :
  exists (f : ndarray Z) L, 1 <= L /\ List.length (shape f) <> 2%nat /\
    flm_2d_to_hp 0 f L = Err IndexError.
Proof. exists ex1d, 3. repeat split; try lia; vm_compute; congruence. Qed.

(** C05: Wigner coefficient layouts. *)
Theorem C05_elmn2ind_bijection : forall L N, 1 <= L -> 1 <= N ->
  bijection3 (fun n el m => valid_lmn L N el m n) (fun n el m => elmn2ind el m n L N)
    (flmn_shape_1d L N).
Proof. exact elmn2ind_bijection. Qed.

Theorem C05_1d_to_3d : forall (A : Type) (zero : A) (f : ndarray A) L N,
  1 <= L -> 1 <= N -> shape f = [(2 * N - 1) * L * L] ->
  exists o, flmn_1d_to_3d zero f L N = Ok o /\ shape o = [2 * N - 1; L; 2 * L - 1] /\
    (forall el m n, valid_lmn L N el m n ->
      get o [N - 1 + n; el; L - 1 + m] = get f [elmn2ind el m n L N]) /\
    triangular3 zero L N o.
Proof. exact (fun A zero => @flmn_1d_to_3d_spec A zero). Qed.

Theorem C05_roundtrip_1d : forall (A : Type) (zero : A) (f : ndarray A) L N,
  1 <= L -> 1 <= N -> shape f = [(2 * N - 1) * L * L] ->
  exists g h, flmn_1d_to_3d zero f L N = Ok g /\ flmn_3d_to_1d zero g L N = Ok h /\ arr_eq h f.
Proof. exact (fun A zero => @roundtrip_1d_3d A zero). Qed.

Theorem C05_roundtrip_3d : forall (A : Type) (zero : A) (f : ndarray A) L N,
  1 <= L -> 1 <= N -> shape f = [2 * N - 1; L; 2 * L - 1] ->
  exists g h, flmn_3d_to_1d zero f L N = Ok g /\ flmn_1d_to_3d zero g L N = Ok h /\
    (arr_eq h f <-> triangular3 zero L N f).
Proof. exact (fun A zero => @roundtrip_3d_1d A zero). Qed.

Example C05_example : valid_lmn 3 2 2 (-1) 1 /\ elmn2ind 2 (-1) 1 3 2 = 23 /\ flmn_shape_1d 3 2 = 27.
Proof. unfold valid_lmn, valid_lm. repeat split; try lia; reflexivity. Qed.

Print Assumptions C01_elm2ind_bijection.
Print Assumptions C01_ind2elm_left_inverse.
Print Assumptions C01_ind2elm_right_inverse.
Print Assumptions C02_1d_to_2d_places_coefficients.
Print Assumptions C02_roundtrip_1d_2d_1d.
Print Assumptions C02_roundtrip_2d_1d_2d.
Print Assumptions C02_dimension_errors.
Print Assumptions C03_1d_to_2d_fast.
Print Assumptions C03_2d_to_1d_fast.
Print Assumptions C03_hp_to_2d_fast.
Print Assumptions C03_2d_to_hp_fast.
Print Assumptions C04_hp_getidx_bijection.
Print Assumptions C04_hp_layout.
Print Assumptions C04_hp_to_2d.
Print Assumptions C04_2d_to_hp.
Print Assumptions C04_roundtrip_hp.
Print Assumptions C04_roundtrip_2d.
Print Assumptions C04_lm2lm_hp.
Print Assumptions C04_2d_to_hp_dimension_check_refuted.
Print Assumptions C05_elmn2ind_bijection.
Print Assumptions C05_1d_to_3d.
Print Assumptions C05_roundtrip_1d.
Print Assumptions C05_roundtrip_3d.
