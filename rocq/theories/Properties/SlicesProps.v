(** C73: the Price & McEwen recursion over all orders at once. *)
From Coq Require Import Reals Lra Lia ZifyBool.
From Verif Require Import Lib.Py Lib.PyFacts Lib.Vec Lib.VecFacts Lib.Arr Lib.Ext Model.Grids Model.PriceMcEwen Model.PMSlices
  Spec.WignerSpec Spec.OTFSpec Proofs.RisboProofs Proofs.PMSlicesProofs Properties.OTFProps.
Open Scope string_scope.
Open Scope Z_scope.

(** compute_all_slices_jax returns 2 L - 1 rows; row L - 1 + m holds d^el_{m, -spin} for every angle at
    which the recursion is regular and every degree el >= |spin|. Whatever the angle inside (0, pi), no entry is
    infinite: it is a number or NaN. *)
Theorem C73_jax : forall th beta L spin sampling forward nside, 2 <= L -> Z.abs spin < L ->
  exists dl, compute_all_slices_jax th beta L spin sampling forward nside None = Ok dl /\ vlen dl = 2 * L - 1 /\
    (forall m j el, - L < m < L -> 0 <= j < vlen beta -> Z.abs spin <= el < L -> regular L 0 (- spin) (vat beta j) ->
       vat dl (L - 1 + m) j el = Fin (wigner_d el m (- spin) (vat beta j))) /\
    (forall r j k, (0 < vat beta j < PI)%R -> (exists x, vat dl r j k = Fin x) \/ vat dl r j k = NaN).
Proof.
  intros th beta L spin sampling forward nside HL Hs. destruct (slices_ok th beta L spin sampling forward nside HL Hs) as (dl & E & V & H & T).
  exists dl. split; [exact E|]. split; [exact V|]. split.
  - intros m j el Hm Hj Hel Hr. rewrite (H (L - 1 + m) ltac:(lia) j el Hj ltac:(lia) Hr ltac:(lia)). do 2 f_equal. lia.
  - intros r j k Hb. destruct T as [_ T]. specialize (T r j k Hb). destruct (vat dl r j k); cbn in T; try contradiction; [left; eauto|now right].
Qed.
Print Assumptions C73_jax.

(** compute_all_slices, the NumPy function, does the same with the coefficients of generate_precomputes
    at the same angles, provided two more arrays are put into the list; it does not read them. *)
Theorem C73_numpy : forall th beta L spin sampling nside forward offset cs, 2 <= L -> Z.abs spin < L ->
  pm_thetas th L sampling nside forward = Ok beta ->
  exists pre dl, generate_precomputes th L spin sampling nside forward 0 = Ok pre /\
    compute_all_slices beta L spin (Some (seven_arrays pre offset cs)) = Ok dl /\ vlen dl = 2 * L - 1 /\
    forall m j el, - L < m < L -> 0 <= j < vlen beta -> Z.abs spin <= el < L -> regular L 0 (- spin) (vat beta j) ->
      vat dl (L - 1 + m) j el = Fin (wigner_d el m (- spin) (vat beta j)).
Proof.
  intros th beta L spin sampling nside forward offset cs HL Hs Hb.
  destruct (slices_numpy_ok th beta L spin sampling nside forward offset cs HL Hs Hb) as (pre & dl & E1 & E & V & H).
  exists pre, dl. split; [exact E1|]. split; [exact E|]. split; [exact V|].
  intros m j el Hm Hj Hel Hr. rewrite (H (L - 1 + m) ltac:(lia) j el Hj ltac:(lia) Hr ltac:(lia)). do 2 f_equal. lia.
Qed.
Print Assumptions C73_numpy.
(** regular angles for L = 5, spin 2 *)
Example C73_numpy_ex : exists th beta, vlen beta = 3 /\ pm_thetas th 5 "mw" None false = Ok beta /\ forall j, 0 <= j < 3 -> regular 5 0 (- (2)) (vat beta j).
Proof.
  destruct (C41_regular_dense 5 0 (-2) 0 1) as (x & Hx & Hr); [lra|pose proof PI_4; pose proof PI2_1; lra|lia|].
  exists (fun _ _ _ => Ok (vconst 3 x)), (vconst 3 x). split; [reflexivity|]. split; [reflexivity|]. intros j Hj. exact Hr.
Qed.

(** ** Findings *)
(** As documented, compute_all_slices can be called without coefficients or with those of
    generate_precomputes. Both calls raise, whatever the arguments. *)
Theorem C73_unusable_refuted : forall beta L spin pre,
  compute_all_slices beta L spin None = Err AttributeError /\ compute_all_slices beta L spin (Some (five_arrays pre)) = Err ValueError.
Proof. intros. split; reflexivity. Qed.
Print Assumptions C73_unusable_refuted.

(** The docstrings place d^el_{m, -spin} in row L - 1 - m: wrong for L = 2, spin 0, m = 1 at every regular angle. *)
Theorem C73_docstring_index_refuted : forall th beta sampling forward nside j, 0 <= j < vlen beta -> regular 2 0 0 (vat beta j) ->
  exists dl, compute_all_slices_jax th beta 2 0 sampling forward nside None = Ok dl /\
    vat dl (2 - 1 - 1) j 1 <> Fin (wigner_d 1 1 0 (vat beta j)).
Proof.
  intros th beta sampling forward nside j Hj Hr. destruct (C73_jax th beta 2 0 sampling forward nside ltac:(lia) ltac:(lia)) as (dl & E & _ & H & _).
  exists dl. split; [exact E|]. change (2 - 1 - 1) with (2 - 1 + -1). rewrite (H (-1) j 1) by (auto; lia). change (- 0) with 0. rewrite wd1_m0, wd1_p0.
  intros [= Q]. destruct Hr as [Hb _]. pose proof (sin_gt_0 _ (proj1 Hb) (proj2 Hb)). pose proof (sqrt_lt_R0 2 ltac:(lra)).
  assert (0 < sin (vat beta j) / sqrt 2)%R by (apply Rdiv_lt_0_compat; lra). unfold Rdiv in *. lra.
Qed.
Print Assumptions C73_docstring_index_refuted.
Example C73_docstring_index_refuted_ex : exists x, regular 2 0 0 x.
Proof. destruct (C41_regular_dense 2 0 0 0 1) as (x & _ & Hr); [lra|pose proof PI_4; pose proof PI2_1; lra|lia|]. now exists x. Qed.
