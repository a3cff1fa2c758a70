(** Spin-weighted signals: Fourier expansion and parity of the Wigner d-functions. *)
From Coq Require Import Reals Lra Lia ZifyBool.
From Coquelicot Require Import Complex.
From Verif Require Import Lib.Py Lib.PyFacts Lib.Sums Lib.Cplx Lib.MatFacts Spec.WignerSpec Spec.SphereSpec
  Proofs.WignerDh Proofs.WignerCalc Proofs.WignerFourier Proofs.TurokProofs.
Open Scope Z_scope.

(** coefficient of e^{ik theta} in d^l_{mn} *)
Definition wfc (l m n k : Z) : C :=
  (cis (IZR (n - m) * (PI / 2)) * RtoC (wigner_d l k m (PI / 2) * wigner_d l k n (PI / 2)))%C.

Lemma wigner_fourier l m n x : Z.abs m <= l -> Z.abs n <= l ->
  RtoC (wigner_d l m n x) = csum (zrange (- l) (l + 1)) (fun k => (wfc l m n k * cis (IZR k * x))%C).
Proof.
  intros Hm Hn. rewrite wig_D, D_fourier by lia. rewrite <- cs_scal_l.
  replace (zrange (- l) (l + 1)) with (zrange (0 + - l) (2 * l + 1 + - l)) by (f_equal; lia).
  rewrite <- (cr_shift 0 (2 * l + 1) (- l)). apply cr_ext. intros q Hq. unfold wfc.
  rewrite !wig_D by lia. unfold HP2.
  replace (l + n - (l + m)) with (n - m) by lia. replace (l + (q + - l)) with q by lia.
  rewrite <- Cmult_assoc. do 2 f_equal. replace (IZR (2 * q - 2 * l) / 2 * x)%R with (IZR (q + - l) * x)%R; [reflexivity|]. rewrite minus_IZR, plus_IZR, opp_IZR, !mult_IZR. field.
Qed.

Lemma half_flip l k m : Z.abs m <= l -> Z.abs k <= l ->
  wigner_d l (- k) m (PI / 2) = (sgn (l + m) * wigner_d l k m (PI / 2))%R.
Proof.
  intros Hm Hk. rewrite !wig_D by lia.
  replace (l + - k) with (2 * l - (l + k)) by lia. replace (l + m) with (2 * l - (l - m)) at 1 by lia.
  rewrite D_flip by lia. replace (D (2 * l) (l + k) (l - m) (PI / 2)) with (D (2 * l) (l + k) (l - m) (PI - PI / 2)) by (f_equal; field).
  rewrite D_PI_minus by lia. replace (2 * l - (l - m)) with (l + m) by lia. rewrite <- Rmult_assoc. f_equal.
  rewrite <- sgn_add. replace (l + k - (l - m) + (l + k)) with ((l + m) + 2 * k) by lia.
  rewrite sgn_add, sgn_double. ring.
Qed.

Lemma wfc_flip l m n k : Z.abs m <= l -> Z.abs n <= l -> Z.abs k <= l ->
  wfc l m n (- k) = (RtoC (sgn (m + n)) * wfc l m n k)%C.
Proof.
  intros. unfold wfc. rewrite !half_flip by lia.
  transitivity (cis (IZR (n - m) * (PI / 2)) * RtoC ((sgn (l + m) * sgn (l + n)) *
    (wigner_d l k m (PI / 2) * wigner_d l k n (PI / 2))))%C.
  - do 2 f_equal. ring.
  - rewrite <- sgn_add. replace (l + m + (l + n)) with (m + n + 2 * l) by lia. rewrite sgn_add, sgn_double, RtoC_mult.
    replace (sgn (m + n) * 1)%R with (sgn (m + n)) by ring. ring.
Qed.

Lemma synth_band_limited L s c : band_limited L s (synth L s c).
Proof.
  exists (fun k m => csum (zrange (Z.abs s) L) (fun l =>
    if (Z.abs m <=? l) && (Z.abs k <=? l)
    then (c l m * RtoC (sgn s * sqrt (IZR (2 * l + 1) / (4 * PI))) * wfc l m (- s) k)%C else RtoC 0)).
  split.
  - intros k m Hk Hm. rewrite <- cs_scal_l. apply cr_ext. intros l Hl. rewrite Z.abs_opp.
    destruct ((Z.abs m <=? l) && (Z.abs k <=? l)) eqn:E; [|ring].
    rewrite wfc_flip by lia. replace (sgn (m + - s)) with (sgn (m + s)); [ring|].
    rewrite !sgn_add, sgn_opp. reflexivity.
  - intros theta phi. unfold synth. symmetry.
    rewrite (cr_ext _ _ _ (fun k => csum (zrange (Z.abs s) L) (fun l => csum (zrange (- (L - 1)) L) (fun m =>
      ((if (Z.abs m <=? l) && (Z.abs k <=? l)
       then (c l m * RtoC (sgn s * sqrt (IZR (2 * l + 1) / (4 * PI))) * wfc l m (- s) k)%C else RtoC 0)
       * cis (IZR k * theta) * cis (IZR m * phi))%C)))).
    2:{ intros k Hk. rewrite cs_swap. apply cr_ext. intros m Hm. rewrite <- !cs_scal_r. reflexivity. }
    rewrite cs_swap. apply cr_ext. intros l Hl. rewrite cs_swap.
    rewrite (cr_shrink (- (L - 1)) L (- l) (l + 1)); try lia.
    + apply cr_ext. intros m Hm. unfold sYlm. rewrite (RtoC_mult _ (wigner_d _ _ _ _)), wigner_fourier by lia.
      rewrite (cr_shrink (- (L - 1)) L (- l) (l + 1)); try lia.
      * rewrite <- !cs_scal_l, <- cs_scal_r, <- cs_scal_l. apply cr_ext. intros k Hk. zif. ring.
      * intros k Hk Hout. zif. ring.
    + intros m Hm Hout. apply cr_0. intros k Hk. zif. ring.
Qed.
