(** Quadrature of products of Wigner functions: the forward transform recovers the coefficients. *)
From Coq Require Import Reals ZifyBool Lra.
From Coquelicot Require Import Coquelicot.
From Verif Require Import Lib.Py Lib.PyFacts Lib.Vec Lib.VecFacts Lib.Sums Lib.Cplx Lib.Arr Lib.ArrFacts Lib.MatFacts
  Model.Index Model.Samples Model.Grids Model.FFT Model.HealpixFFT Model.Turok Model.Resampling Model.Quadrature Model.Spherical
  Spec.SamplesSpec Spec.WignerSpec Spec.SphereSpec Spec.GridSpec Spec.HealpixFFTSpec Spec.SphericalSpec Spec.QuadSpec
  Proofs.SamplesProofs Proofs.GridProofs Proofs.PixelProofs Proofs.TurokProofs Proofs.HealpixDFTProofs Proofs.SphGrid
  Proofs.WignerCalc Proofs.WignerFourier Proofs.SphereTheory Proofs.ResamplingProofs Proofs.QuadProofs
  Proofs.SphInverse Proofs.SphForward.
Open Scope string_scope.
Open Scope Z_scope.

Lemma wig_opp l m n x : Z.abs m <= l -> Z.abs n <= l -> wigner_d l m n (- x) = (sgn (m + n) * wigner_d l m n x)%R.
Proof.
  intros Hm Hn. apply RtoC_inj. rewrite RtoC_mult, !wigner_fourier by auto. rewrite <- cs_scal_l.
  rewrite <- (cr_perm (- l) (l + 1) (- l) (l + 1) Z.opp (fun k => (wfc l m n k * cis (IZR k * - x))%C)) by lia.
  apply cr_ext. intros k Hk. rewrite wfc_flip by lia. rewrite opp_IZR. replace (- IZR k * - x)%R with (IZR k * x)%R by ring. ring.
Qed.

(** the product of two functions of the same orders is a cosine polynomial of degree <= l + l' *)
Definition pcf (l l' m n k k' : Z) : R := Re (wfc l m n k * wfc l' m n k')%C.
Lemma wig_prod l l' m n x : Z.abs m <= l -> Z.abs n <= l -> Z.abs m <= l' -> Z.abs n <= l' ->
  (wigner_d l m n x * wigner_d l' m n x)%R = rsum (zrange (- l) (l + 1)) (fun k => rsum (zrange (- l') (l' + 1)) (fun k' =>
    (pcf l l' m n k k' * cos (IZR (k + k') * x))%R)).
Proof.
  intros H1 H2 H3 H4.
  assert (E : (RtoC (wigner_d l m n x * wigner_d l' m n x) = csum (zrange (- l) (l + 1)) (fun k => csum (zrange (- l') (l' + 1)) (fun k' =>
    (wfc l m n k * wfc l' m n k' * RtoC (cos (IZR (k + k') * x)))%C)))%C).
  { assert (E0 : forall y, (RtoC (wigner_d l m n y * wigner_d l' m n y) = csum (zrange (- l) (l + 1)) (fun k => csum (zrange (- l') (l' + 1)) (fun k' =>
      (wfc l m n k * wfc l' m n k' * cis (IZR (k + k') * y))%C)))%C).
    { intros y. rewrite RtoC_mult, !wigner_fourier by auto. rewrite <- cs_scal_r. apply cr_ext. intros k _. rewrite <- cs_scal_l.
      apply cr_ext. intros k' _. rewrite plus_IZR, Rmult_plus_distr_r, cis_plus. ring. }
    assert (S : RtoC (wigner_d l m n x * wigner_d l' m n x) = (RtoC (/ 2) * (RtoC (wigner_d l m n x * wigner_d l' m n x) + RtoC (wigner_d l m n (- x) * wigner_d l' m n (- x))))%C).
    { rewrite !wig_opp by auto. replace (sgn (m + n) * wigner_d l m n x * (sgn (m + n) * wigner_d l' m n x))%R
        with ((sgn (m + n) * sgn (m + n)) * (wigner_d l m n x * wigner_d l' m n x))%R by ring. rewrite sgn_sq, <- RtoC_plus, <- RtoC_mult. f_equal. field. }
    rewrite S, !E0. rewrite <- cs_plus, <- cs_scal_l. apply cr_ext. intros k _. rewrite <- cs_plus, <- cs_scal_l. apply cr_ext. intros k' _.
    replace (IZR (k + k') * - x)%R with (- (IZR (k + k') * x))%R by ring. unfold cis. rewrite cos_neg, sin_neg.
    destruct (wfc l m n k) as [a b], (wfc l' m n k') as [c d]. unfold Cmult, Cplus, RtoC; cbn. f_equal; field. }
  apply (f_equal Re) in E. cbn [Re RtoC fst] in E. rewrite E, Re_csum. apply rr_ext. intros k _. rewrite Re_csum. apply rr_ext. intros k' _.
  unfold pcf. destruct (wfc l m n k) as [a b], (wfc l' m n k') as [c d]. unfold Re, Cmult, RtoC; cbn. ring.
Qed.

(** a rule exact for cosines of degree < K integrates the products exactly *)
Lemma quad_prod K n W th l l' m nn : Z.abs m <= l -> Z.abs nn <= l -> Z.abs m <= l' -> Z.abs nn <= l' -> l + l' < K ->
  (forall k, - K < k < K -> rsum (zrange 0 n) (fun t => (W t * cos (IZR k * th t))%R) = (2 * PI * Re (mw_weights k))%R) ->
  rsum (zrange 0 n) (fun t => (W t * (wigner_d l m nn (th t) * wigner_d l' m nn (th t)))%R)
  = if l =? l' then (4 * PI / IZR (2 * l + 1))%R else 0%R.
Proof.
  intros H1 H2 H3 H4 HK HQ. transitivity (2 * PI * IP l l' m nn)%R.
  - rewrite (rr_ext _ _ _ (fun t => rsum (zrange (- l) (l + 1)) (fun k => rsum (zrange (- l') (l' + 1)) (fun k' =>
      (pcf l l' m nn k k' * (W t * cos (IZR (k + k') * th t)))%R)))).
    2:{ intros t _. rewrite wig_prod by auto. rewrite <- rs_scal_l. apply rr_ext. intros k _. rewrite <- rs_scal_l. apply rr_ext. intros k' _. ring. }
    rewrite rs_swap. rewrite (rr_ext _ _ _ (fun k => rsum (zrange (- l') (l' + 1)) (fun k' => (pcf l l' m nn k k' * (2 * PI * Re (mw_weights (k + k'))))%R))).
    2:{ intros k Hk. rewrite rs_swap. apply rr_ext. intros k' Hk'. rewrite rs_scal_l, HQ by lia. reflexivity. }
    unfold IP. 
    assert (I : is_RInt (fun x => (D (2 * l) (l + m) (l + nn) x * D (2 * l') (l' + m) (l' + nn) x * sin x)%R) 0 PI
      (rsum (zrange (- l) (l + 1)) (fun k => rsum (zrange (- l') (l' + 1)) (fun k' => (pcf l l' m nn k k' * Re (mw_weights (k + k')))%R)))).
    { apply (is_RInt_ext (fun x => rsum (zrange (- l) (l + 1)) (fun k => rsum (zrange (- l') (l' + 1)) (fun k' =>
        (pcf l l' m nn k k' * (cos (IZR (k + k') * x) * sin x))%R)))).
      - intros x _. rewrite <- !wig_D by auto. rewrite wig_prod by auto. rewrite <- rs_scal_r. apply rr_ext. intros k _. rewrite <- rs_scal_r.
        apply rr_ext. intros k' _. ring.
      - assert (IS : forall k k', is_RInt (fun x => (pcf l l' m nn k k' * (cos (IZR (k + k') * x) * sin x))%R) 0 PI (pcf l l' m nn k k' * Re (mw_weights (k + k')))%R)
          by (intros; apply (is_RInt_scal (V := R_NormedModule)), mw_cos).
        assert (IK : forall k, is_RInt (fun x => rsum (zrange (- l') (l' + 1)) (fun k' => (pcf l l' m nn k k' * (cos (IZR (k + k') * x) * sin x))%R)) 0 PI
           (rsum (zrange (- l') (l' + 1)) (fun k' => (pcf l l' m nn k k' * Re (mw_weights (k + k')))%R))).
        { intros k. pose proof (RInt_rsum (fun k' x => (pcf l l' m nn k k' * (cos (IZR (k + k') * x) * sin x))%R) (zrange (- l') (l' + 1)) 0 PI
            ltac:(intros k' _; eexists; apply IS)) as R1.
          rewrite (rr_ext _ _ _ (fun k' => (pcf l l' m nn k k' * Re (mw_weights (k + k')))%R)) in R1; [exact R1|].
          intros k' _. apply is_RInt_unique, IS. }
        pose proof (RInt_rsum (fun k x => rsum (zrange (- l') (l' + 1)) (fun k' => (pcf l l' m nn k k' * (cos (IZR (k + k') * x) * sin x))%R)) (zrange (- l) (l + 1)) 0 PI
          ltac:(intros k _; eexists; apply IK)) as R1.
        rewrite (rr_ext _ _ _ (fun k => rsum (zrange (- l') (l' + 1)) (fun k' => (pcf l l' m nn k k' * Re (mw_weights (k + k')))%R))) in R1; [exact R1|].
        intros k _. apply is_RInt_unique, IK. }
    apply (is_RInt_unique (V := R_CompleteNormedModule)) in I. rewrite I. rewrite <- rs_scal_l. apply rr_ext. intros k _. rewrite <- rs_scal_l. apply rr_ext. intros k' _. ring.
  - destruct (Z.eqb_spec l l') as [<-|N].
    + rewrite IP_same by lia. field. apply not_0_IZR. lia.
    + rewrite IP_diff by lia. ring.
Qed.

(** ** The sums of the forward transform on a signal of known coefficients *)
Lemma ring_coeff L spin c N theta m : 1 <= L -> N = 2 * L - 1 \/ N = 2 * L -> - L < m < L ->
  csum (zrange 0 N) (fun p => (cis (- (IZR m * (2 * PI * IZR p / IZR N))) * synth L spin c theta (2 * PI * IZR p / IZR N))%C)
  = (RtoC (IZR N) * csum (zrange (Z.abs spin) L) (fun l => if Z.abs m <=? l then c l m * RtoC (sgn spin * elfactor l * wigner_d l m (- spin) theta) else RtoC 0))%C.
Proof.
  intros HL HN Hm.
  rewrite <- (dft_trig L HL N (fun j => csum (zrange (Z.abs spin) L) (fun l => if Z.abs j <=? l then c l j * RtoC (sgn spin * elfactor l * wigner_d l j (- spin) theta) else RtoC 0)%C)
    (fun p => synth L spin c theta (2 * PI * IZR p / IZR N)) m HN Hm).
  - unfold dft. apply cr_ext. intros p _. rewrite Cmult_comm. f_equal. unfold root. f_equal. rewrite opp_IZR, mult_IZR. unfold Rdiv. ring.
  - intros p Hp. unfold synth.
    transitivity (csum (zrange (Z.abs spin) L) (fun l => csum (zrange (- (L - 1)) L) (fun j => ((if Z.abs j <=? l then c l j * RtoC (sgn spin * elfactor l * wigner_d l j (- spin) theta) else RtoC 0) * root N (j * p))%C))).
    + apply cr_ext. intros l Hl. symmetry. rewrite (cr_shrink (- (L - 1)) L (- l) (l + 1)); try lia.
      * apply cr_ext. intros j Hj. replace (Z.abs j <=? l) with true by lia. unfold sYlm, elfactor. rewrite cis_root. ring.
      * intros j Hj Ho. replace (Z.abs j <=? l) with false by lia. ring.
    + rewrite cs_swap. apply cr_ext. intros j Hj. now rewrite cs_scal_r.
Qed.

Lemma elf_sq l : 0 <= l -> (elfactor l * elfactor l * (4 * PI / IZR (2 * l + 1)) = 1)%R.
Proof.
  intros Hl. unfold elfactor. assert (P := PI_RGT_0). assert (N : (0 < IZR (2 * l + 1))%R) by (apply IZR_lt; lia).
  rewrite sqrt_sqrt; [field; lra|]. apply Rlt_le, Rdiv_lt_0_compat; lra.
Qed.

Lemma round_core f L spin Lo s n th weights c flm : 1 <= L -> s <> HEALPIX ->
  (forall t p, 0 <= t < n -> 0 <= p < per_ring s L -> get f [t; p] = synth L spin c (th t) (equi_longitude s L p)) ->
  (forall k, - (2 * L) < k < 2 * L ->
     rsum (zrange 0 n) (fun t => (IZR (per_ring s L) * vat weights t * cos (IZR k * th t))%R) = (2 * PI * Re (mw_weights k))%R) ->
  0 <= Lo ->
  fwd_ok f L spin Lo (equi_grid s L n th) weights flm ->
  forall el m, 0 <= el < L -> - L < m < L ->
    get flm [el; m + L - 1] = if (Z.max Lo (Z.abs spin) <=? el) && (Z.abs m <=? el) then c el m else RtoC 0.
Proof.
  intros HL Hs Hf HQ HLo [_ Hflm] el m Hel Hm. rewrite Hflm by auto.
  destruct (Z.leb_spec (Z.max Lo (Z.abs spin)) el) as [B|B]; [|reflexivity]. cbn [andb].
  unfold U. cbn [equi_grid gn]. destruct (Z.leb_spec (Z.abs m) el) as [Bm|Bm].
  2:{ apply cr_0. intros t _. unfold vt, Bc. rewrite wig_out by lia. rewrite Rmult_0_r. ring. }
  assert (HN : per_ring s L = 2 * L - 1 \/ per_ring s L = 2 * L) by (destruct s; cbn; try congruence; lia).
  rewrite (cr_ext _ _ _ (fun t => csum (zrange (Z.abs spin) L) (fun l => (if Z.abs m <=? l then c l m else RtoC 0) * RtoC (elfactor el * elfactor l) *
     RtoC (IZR (per_ring s L) * vat weights t * (wigner_d el m (- spin) (th t) * wigner_d l m (- spin) (th t))))%C)).
  2:{ intros t Ht. unfold vt, fts. cbn [equi_grid gN gph ge gth]. 
      rewrite (cr_ext _ _ _ (fun p => (cis (- (IZR m * (2 * PI * IZR p / IZR (per_ring s L)))) * synth L spin c (th t) (2 * PI * IZR p / IZR (per_ring s L)))%C))
        by (intros p Hp; rewrite Hf by auto; reflexivity).
      rewrite ring_coeff by auto. rewrite Cmult_assoc, <- RtoC_mult, <- cs_scal_l. apply cr_ext. intros l Hl. unfold Bc. cbn [equi_grid gth].
      destruct (Z.abs m <=? l); [|ring].
      transitivity (c l m * RtoC ((sgn spin * sgn spin) * (elfactor el * elfactor l * (IZR (per_ring s L) * vat weights t * (wigner_d el m (- spin) (th t) * wigner_d l m (- spin) (th t))))))%C;
        [rewrite !RtoC_mult; ring|rewrite sgn_sq, !RtoC_mult; ring]. }
  rewrite cs_swap. rewrite (cr_ext _ _ _ (fun l => if l =? el then c l m else RtoC 0)).
  - apply (cr_delta _ _ el (fun l => c l m)). lia.
  - intros l Hl. rewrite cs_scal_l. destruct (Z.leb_spec (Z.abs m) l) as [Bl|Bl].
    + rewrite csum_RtoC. rewrite (quad_prod (2 * L) n (fun t => IZR (per_ring s L) * vat weights t)%R th el l m (- spin)) by (auto; lia).
      rewrite Z.eqb_sym. destruct (Z.eqb_spec l el) as [->|N].
      * rewrite <- Cmult_assoc, <- RtoC_mult, elf_sq by lia. ring.
      * ring.
    + destruct (Z.eqb_spec l el); [lia|]. ring.
Qed.
