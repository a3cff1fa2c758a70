(** The kernels of the precomputed Wigner transforms at the colatitudes, and calls that fail. *)
From Coq Require Import Reals ZifyBool Lra.
From Coquelicot Require Import Complex.
From Verif Require Import Lib.Py Lib.PyFacts Lib.Vec Lib.VecFacts Lib.Sums Lib.Cplx Lib.Arr Lib.ArrFacts Lib.MatFacts
  Model.Index Model.Samples Model.Grids Model.FFT Model.HealpixFFT Model.Turok Model.Risbo Model.Resampling Model.Quadrature
  Model.Spherical Model.PriceMcEwen Model.Precompute Model.Wigner Model.FourierWigner Model.OTFWigner Model.PrecomputeWigner
  Spec.SamplesSpec Spec.WignerSpec Spec.SphereSpec Spec.GridSpec Spec.HealpixFFTSpec Spec.SphericalSpec Spec.QuadSpec Spec.SO3Spec Spec.OTFSphericalSpec Spec.OTFWignerSpec
  Spec.PrecomputeSpec Spec.PrecomputeWignerSpec
  Proofs.SamplesProofs Proofs.GridProofs Proofs.TurokProofs Proofs.RisboProofs Proofs.HealpixDFTProofs Proofs.SphereTheory Proofs.SphGrid
  Proofs.SphInverse Proofs.SphTop Proofs.SphForward Proofs.SphForwardTop Proofs.SphFacts Proofs.ResamplingProofs Proofs.ResamplingGen Proofs.PrecomputeKernel Proofs.PrecomputeSph
  Proofs.WignerInverse Proofs.WignerForward Proofs.WignerRound Proofs.WignerReal Proofs.FWArrays Proofs.OTFWignerLoop Proofs.OTFWignerForward Proofs.OTFWignerFwdTop
  Proofs.OTFSphNear Proofs.OTFSphTop Proofs.OTFSphForward Proofs.PrecomputeTop Proofs.PWKernel Proofs.PWInverse Proofs.PWForward
  Spec.CallSpec.
From Coq Require Import List.
Import ListNotations.
Open Scope string_scope.
Open Scope Z_scope.

(** ** The kernels *)
Lemma inverse_wkernel b gl name s L N nside o reality mode : setting name s L nside o -> 1 <= N <= L ->
  (s = GL -> vlen (gl_nodes gl L) = L) -> mode_ok mode s L ->
  exists K, wigner_kernel b gl L N reality name o false mode = Ok K /\
    shape K = [if reality then N else 2 * N - 1; rings s L nside; L; 2 * L - 1] /\
    forall n t el m x, (if reality then 0 else 1 - N) <= n < N -> 0 <= t < rings s L nside -> 0 <= el < L -> - L < m < L ->
      colatitude (vat (gl_nodes gl L)) s L nside t x ->
      get K [if reality then n else n + N - 1; t; el; m + L - 1] =
      (RtoC (wigner_d el m n x * (IZR (2 * el + 1) / (8 * PI ^ 2))) * (match s with HEALPIX => cis (IZR m * hp_longitude nside t 0) | _ => RtoC 1 end))%C.
Proof.
  intros S HN Hg HM. pose proof S as (Hd & HL & Hn). assert (Hn1 : s = HEALPIX -> 1 <= nside) by (intros Q; apply (Hn Q)).
  destruct (wigner_kernel_lemma b gl name s L N nside o false reality mode S HN ltac:(intros Q; split; [auto|discriminate]) HM) as (K & w & E & _ & SK & HK).
  exists K. split; [exact E|]. cbn [kgrid] in *. rewrite the_grid_n in *. split; [exact SK|]. intros n t el m x H1 H2 H3 H4 Hx.
  assert (EI : (if reality then n else n + N - 1) = n - n_low N reality) by (unfold n_low; destruct reality; lia). rewrite EI.
  pose proof (HK (n - n_low N reality) t el (m + L - 1)) as Q. unfold at4 in Q. rewrite Q; [|unfold n_dim, n_low in *; destruct reality; lia|lia|lia|lia].
  unfold wkval. rewrite the_grid_th. replace (n_low N reality + (n - n_low N reality)) with n by lia. replace (m + L - 1 - (L - 1)) with m by lia.
  rewrite (colat_unique gl s L nside t x) by auto. reflexivity.
Qed.
Lemma forward_wkernel b gl name s L N nside o reality mode : setting name s L nside o -> 1 <= N <= L ->
  rule_sizes s L (gl_nodes gl L) (gl_weights gl L) -> mode_ok mode s L ->
  exists K w, wigner_kernel b gl L N reality name o true mode = Ok K /\ quad_weights_transform gl L (scheme_name (forward_scheme s)) 0 o = Ok w /\
    shape K = [if reality then N else 2 * N - 1; rings (forward_scheme s) (forward_band s L) nside; L; 2 * L - 1] /\
    forall n t el m x, (if reality then 0 else 1 - N) <= n < N -> 0 <= t < rings (forward_scheme s) (forward_band s L) nside -> 0 <= el < L -> - L < m < L ->
      colatitude (vat (gl_nodes gl L)) (forward_scheme s) (forward_band s L) nside t x ->
      get K [if reality then n else n + N - 1; t; el; m + L - 1] =
      (RtoC (wigner_d el m n x * (vat w t * (2 * PI / IZR (2 * N - 1)))) * (match s with HEALPIX => cis (- (IZR m * hp_longitude nside t 0)) | _ => RtoC 1 end))%C.
Proof.
  intros S HN Hg HM. pose proof S as (Hd & HL & Hn). assert (Hn1 : s = HEALPIX -> 1 <= nside) by (intros Q; apply (Hn Q)).
  destruct (wigner_kernel_lemma b gl name s L N nside o true reality mode S HN ltac:(intros Q; destruct (Hg Q); auto) HM) as (K & w & E & Ew & SK & HK).
  exists K, w. split; [exact E|]. split.
  { rewrite <- (Ew eq_refl). unfold denotes in Hd. clear - Hd. unfold fname, quad_weights_transform. destruct s; try reflexivity; cbn [forward_scheme]; rewrite Hd; reflexivity. }
  cbn [kgrid] in *. rewrite (fwd_rings gl s L nside) in *. split; [exact SK|]. intros n t el m x H1 H2 H3 H4 Hx.
  assert (EI : (if reality then n else n + N - 1) = n - n_low N reality) by (unfold n_low; destruct reality; lia). rewrite EI.
  pose proof (HK (n - n_low N reality) t el (m + L - 1)) as Q. unfold at4 in Q. rewrite Q; [|unfold n_dim, n_low in *; destruct reality; lia|lia|lia|lia].
  unfold wkval. replace (n_low N reality + (n - n_low N reality)) with n by lia. replace (m + L - 1 - (L - 1)) with m by lia.
  assert (TH : gth (fgrid gl s L nside) t = x).
  { rewrite <- ogrid_exact, ogrid_th. symmetry. rewrite fscheme_eq. fold (forward_band s L).
    destruct s; (apply (colat_unique gl _ _ nside t x); auto; fail) || (symmetry; exact (eq_sym Hx)). }
  rewrite TH. f_equal. unfold kphase, phase_of. destruct s; try apply Cconj_R. apply cis_conj.
Qed.
Lemma wkernel_rejects b gl L N reality name o forward mode :
  (lower mode = "fft" -> ~ In (lower name) ["mw"; "mwss"; "dh"] -> wigner_kernel b gl L N reality name o forward mode = Err ValueError) /\
  (~ In (lower mode) ["fft"; "direct"; "auto"] -> forall s nside, setting name s L nside o -> (s = GL -> vlen (gl_nodes gl L) = L) ->
   wigner_kernel b gl L N reality name o forward mode = Err ValueError).
Proof.
  assert (SI : forall x l, ~ In x l -> str_in x l = false).
  { intros x l H. unfold str_in. apply not_true_iff_false. intros Q. apply existsb_exists in Q. destruct Q as (y & Hy & Ey). apply String.eqb_eq in Ey. subst y. auto. }
  split.
  - intros H1 H2. unfold wigner_kernel, wigner_mode. rewrite H1, SI by exact H2. reflexivity.
  - intros H s nside S Hg. pose proof S as (Hd & HL & Hn).
    assert (E1 : streq (lower mode) "fft" = false) by (apply String.eqb_neq; intros Q; apply H; cbn; auto).
    assert (E2 : streq (lower mode) "auto" = false) by (apply String.eqb_neq; intros Q; apply H; cbn; auto).
    assert (E3 : streq (lower mode) "direct" = false) by (apply String.eqb_neq; intros Q; apply H; cbn; auto).
    unfold wigner_kernel, wigner_mode. rewrite E1, E2. cbn [andb bind].
    destruct (kernel_thetas_ok gl name s L nside o forward S Hg) as (ths & ET & _). rewrite ET. cbn [bind]. rewrite E1, E3. reflexivity.
Qed.
(** ** Failures *)
Lemma wmode_one b gl N reality name o forward : In (lower name) ["mw"; "mwss"; "dh"] -> wigner_kernel b gl 1 N reality name o forward "auto" = Err OverflowError.
Proof.
  intros H. unfold wigner_kernel, wigner_mode. cbn [lower streq String.eqb Ascii.eqb Bool.eqb andb].
  replace (str_in (lower name) ["mw"; "mwss"; "dh"]) with true; [reflexivity|]. symmetry. unfold str_in. apply existsb_exists. eexists. split; [exact H|apply String.eqb_refl].
Qed.
Lemma one_plane_fails b f K L s reality o : 1 <= L -> s = MW \/ s = MWSS -> shape f = 1 :: map_shape s L 0 ->
  pw_forward_transform b f K L 1 (scheme_name s) reality o = Err IndexError.
Proof.
  intros HL Hs Hf. unfold pw_forward_transform.
  assert (EL : Z.of_nat (List.length (shape f)) = if streq (lower (scheme_name s)) "healpix" then 2 else 3) by (rewrite Hf; destruct Hs as [-> | ->]; reflexivity).
  rewrite EL, Z.eqb_refl. cbn [negb]. cbv zeta.
  replace ((if reality then 1 - 1 else 0) - 1 + 1) with 0 by (destruct reality; lia).
  set (gam := if reality then map_axis0 rfft_bwd f else map_axis0 (fun v => fftshift (fft_bwd v)) f).
  assert (SG : shape gam = 1 :: map_shape s L 0).
  { unfold gam, map_axis0. destruct reality; cbn [shape]; rewrite Hf; cbn [tl]; f_equal; unfold line0; cbn; unfold dim0; rewrite Hf; reflexivity. }
  assert (DM : dim0 gam = 1) by (unfold dim0; now rewrite SG). rewrite DM. change (1 =? 1 - 0) with true. cbn [negb]. rewrite andb_false_r. cbn [bind].
  assert (E2 : str_in (lower (scheme_name s)) ["mw"; "mwss"] = true) by (destruct Hs as [-> | ->]; reflexivity). rewrite E2.
  assert (R1 : exists r1, (if streq (lower (scheme_name s)) "mw" then map_planes (fun k p => mw_to_mwss b p L (- (0 + k))) gam else Ok gam) = Ok r1 /\ shape r1 = [1; L + 1; 2 * L]).
  { destruct Hs as [-> | ->].
    - destruct (map_planes_ok (fun k p => mw_to_mwss b p L (- (0 + k))) gam 1 (map_shape MW L 0) [L + 1; 2 * L] SG ltac:(lia)) as (r & E & S & _).
      + intros k Hk. destruct (mw_op_ok L (- (0 + k)) HL b (pl gam k) (at2 (pl gam k))) as (q & Eq & Hq).
        * split; [|reflexivity]. unfold pl. cbn [shape]. rewrite SG. reflexivity.
        * exists q. split; [exact Eq|exact (proj1 Hq)].
      + exists r. auto.
    - exists gam. split; [reflexivity|exact SG]. }
  destruct R1 as (r1 & -> & S1). cbn [bind].
  destruct (map_planes_ok (fun k p => upsample_by_two_mwss b p L (- (0 + k))) r1 1 [L + 1; 2 * L] [2 * L + 1; 2 * L] S1 ltac:(lia)) as (r2 & -> & S2 & _).
  { intros k Hk. destruct (up_op_ok L (- (0 + k)) HL b (pl r1 k) (at2 (pl r1 k))) as (q & Eq & Hq).
    - split; [|reflexivity]. unfold pl. cbn [shape]. rewrite S1. reflexivity.
    - exists q. split; [exact Eq|exact (proj1 Hq)]. }
  cbn [bind]. unfold squeeze0, dim0. rewrite S2. cbn [nth Z.eqb Pos.eqb shape tl List.length Z.of_nat Pos.of_succ_nat Pos.succ negb]. reflexivity.
Qed.
Lemma upper_fails gl flmn L N reality method b : 2 <= L -> 1 <= N <= L -> shape flmn = [2 * N - 1; L; 2 * L - 1] -> runs_on method b ->
  pw_inverse gl flmn L N None "MWSS" reality method None = Err ValueError.
Proof.
  intros HL HN Sf R. unfold pw_inverse.
  assert (EB : method_backend method = Ok b) by (destruct R as [(-> & ->)|([-> | ->] & ->)]; reflexivity). rewrite EB. cbn [bind].
  destruct (inverse_wkernel b gl "MWSS" MWSS L N 0 None reality "auto") as (K & EK & SK & _); auto.
  { repeat split; try lia; discriminate. } { discriminate. } { right. right. split; [reflexivity|left; lia]. }
  rewrite EK. cbn [bind]. unfold pw_inverse_transform. change (wm_offset "MWSS") with 0. cbv zeta.
  change (fnab_shape L N "MWSS" None) with (fnab_shape L N (scheme_name MWSS) None).
  rewrite (fnab_shape_ok MWSS L N 0 None) by (repeat split; try lia; discriminate). cbn [bind].
  destruct (einsum_ntlm_nlm K _) as [e|ex] eqn:E.
  - assert (D : dim2 e = 2 * L - 1).
    { unfold einsum_ntlm_nlm in E. destruct (_ && _) in E; [|discriminate]. injection E as <-. unfold dim2, arr3, dim3. cbn [shape nth]. now rewrite SK. }
    clear E. cbn [bind]. match goal with |- context [tail_set ?a ?s 0 e] => assert (T : tail_set a s 0 e = Err ValueError) end.
    { unfold tail_set. rewrite D. replace (dim2 (zeros (RtoC 0) [2 * N - 1; rings MWSS L 0; orders MWSS L])) with (2 * L) by reflexivity.
      rewrite (slice_len_in (2 * L)) by lia. replace (2 * L - 1 =? 2 * L - 0) with false by lia. now rewrite andb_false_r. }
    rewrite T. reflexivity.
  - cbn [bind]. unfold einsum_ntlm_nlm in E. destruct (_ && _) in E; [discriminate|]. now injection E as <-.
Qed.
(** ** Inverse transforms of the same coefficients *)
Lemma pw_inverse_agree gl method b method' b' s flmn flmn' L N kernel kernel' nside o reality reality' : nodes_ok s L (gl_nodes gl L) ->
  setting (scheme_name s) s L nside o -> 1 <= N <= L -> shape flmn = [2 * N - 1; L; 2 * L - 1] -> shape flmn' = [2 * N - 1; L; 2 * L - 1] ->
  (s = GL -> vlen (gl_nodes gl L) = L) ->
  (s = HEALPIX -> 2 * nside <= L) -> runs_on method b -> runs_on method' b' ->
  wkernel_given gl L N reality s (scheme_name s) o false kernel -> wkernel_given gl L N reality' s (scheme_name s) o false kernel' ->
  (forall n l m, - N < n < N -> Z.abs n <= l < L -> - l <= m <= l -> mean3 reality (stored3 L N flmn) n l m = mean3 reality' (stored3 L N flmn') n l m) ->
  same_ok (pw_inverse gl flmn L N kernel (scheme_name s) reality method o) (pw_inverse gl flmn' L N kernel' (scheme_name s) reality' method' o).
Proof.
  intros Hno S HN Hf Hf' Hg Hh Hb Hb' HK HK' HE.
  destruct (pw_inverse_lemma gl method b s flmn L N kernel nside o reality S HN Hf Hg Hh Hb HK) as (f & E & (S1 & G1)).
  destruct (pw_inverse_lemma gl method' b' s flmn' L N kernel' nside o reality' S HN Hf' Hg Hh Hb' HK') as (f' & E' & (S2 & G2)).
  exists f, f'. split; [exact E|]. split; [exact E'|]. split; [congruence|]. intros ix Hix. rewrite S1 in Hix.
  destruct (so3_cover gl s L N nside o ix S Hix) as (g & t & p & -> & Hgi & Ht & Hp).
  assert (Hn1 : s = HEALPIX -> 1 <= nside) by (intros Q; apply (proj2 (proj2 S) Q)).
  assert (HC := placed gl s L nside Hn1 Hno t Ht). rewrite (G1 g t p _ Hgi Ht Hp HC), (G2 g t p _ Hgi Ht Hp HC). now apply so3_synth_ext.
Qed.
Lemma hermitian_mean L N c n l m : hermitian3 L N c -> - N < n < N -> Z.abs n <= l < L -> - l <= m <= l -> real_mean3 c n l m = c n l m.
Proof.
  intros H Hn Hl Hm. unfold real_mean3. destruct (Z.ltb_spec n 0); [|destruct (Z.eqb_spec n 0) as [->|]; auto].
  - rewrite (H n l m) by lia. rewrite Cconj_mult, Cconj_R, Cconj_conj, Cmult_assoc, <- RtoC_mult, sgn_sq. ring.
  - pose proof (H 0 l m ltac:(lia) ltac:(lia) ltac:(lia)) as Q. change (- 0) with 0 in Q. rewrite Q, Cconj_mult, Cconj_R, Cconj_conj, Cmult_assoc, <- RtoC_mult.
    rewrite Z.add_0_r, sgn_sq. assert (H2 : RtoC 2 <> RtoC 0) by (intros X; injection X; lra). replace (RtoC 2) with (RtoC 1 + RtoC 1)%C in * by (rewrite <- RtoC_plus; f_equal; lra). field. exact H2.
Qed.
