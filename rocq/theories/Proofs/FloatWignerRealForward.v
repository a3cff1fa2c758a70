(** The precomputed forward Wigner transform of real signals in rounded arithmetic. *)
From Coq Require Import Reals Lra Lia ZifyBool Permutation FunctionalExtensionality.
From Coquelicot Require Import Complex.
From Verif Require Import Lib.Py Lib.PyFacts Lib.Vec Lib.VecFacts Lib.Sums Lib.Cplx Lib.Arr Lib.ArrFacts Lib.MatFacts Model.Index Model.Samples Model.FFT
  Model.RisboFloat Model.Spherical Model.Precompute Model.PrecomputeFloat Model.ForwardFloat Model.Wigner Model.FourierWigner Model.PrecomputeWigner Model.WignerFloat Model.WignerForwardFloat
  Model.WignerRealFloat Model.WignerRealForwardFloat
  Spec.SamplesSpec Spec.WignerSpec Spec.SphereSpec Spec.GridSpec Spec.SphericalSpec Spec.HealpixFFTSpec Spec.SO3Spec Spec.OTFWignerSpec Spec.RoundingSpec Spec.PrecomputeFloatSpec Spec.ForwardFloatSpec
  Spec.WignerFloatSpec Spec.WignerForwardFloatSpec Spec.RealFloatSpec
  Proofs.RisboProofs Proofs.SpectralBound Proofs.FloatSums Proofs.FloatKernel Proofs.FloatInverse Proofs.FloatFourier Proofs.FloatTop
  Proofs.SphAngles Proofs.WignerInverse Proofs.WignerForward Proofs.WignerRound Proofs.PrecomputeKernel Proofs.FWArrays Proofs.PWKernel Proofs.PWInverse Proofs.PWForward Proofs.FloatForward Proofs.FloatForwardTop Proofs.FloatWigner
  Proofs.FloatReal Proofs.FloatRealInverse Proofs.FloatRealForward Proofs.FloatWignerReal.
Open Scope R_scope.

(** ** The half kernel *)
Lemma xweigh_half A K Kr w N T L K' : half3 K Kr N T L -> xf_weigh A K w N = Ok K' -> (1 <= N)%Z -> exists Kr', xf_weigh A Kr w N = Ok Kr' /\ half3 K' Kr' N T L.
Proof.
  intros (S1 & S2 & H) E HN. unfold xf_weigh, dim0, dim1, dim2, dim3 in *. rewrite S1, S2 in *. cbn [nth] in *.
  destruct (T =? vlen w)%Z; [|discriminate]. injection E as <-.
  eexists. split; [reflexivity|]. split; [reflexivity|]. split; [reflexivity|]. intros k t l i Hk Ht Hl Hi. unfold at4 at 1 3. cbn [arr4 get nth]. now rewrite H by lia.
Qed.
Lemma xkernel_half A name ths wgl L N K : (1 <= N <= L)%Z -> xf_kernel A name ths wgl L N = Ok K -> exists Kr, xr_kernel A name ths wgl L N = Ok Kr /\ half3 K Kr N (vlen ths) L.
Proof.
  intros HN. unfold xf_kernel, xr_kernel. destruct (wf_direct A ths L N) as [d|] eqn:E; [|discriminate]. cbn [bind].
  destruct (wdirect_half A ths L N d HN E) as (dr & -> & H). cbn [bind]. destruct (ff_weights A name L ths wgl) as [w|]; [|discriminate]. cbn [bind].
  intros E2. now apply (xweigh_half A d); [| |lia].
Qed.
Lemma xkernel_fft_half A F name ths wgl L N K : (1 <= N <= L)%Z -> xf_kernel_fft A F name ths wgl L N = Ok K ->
  exists Kr, xr_kernel_fft A F name ths wgl L N = Ok Kr /\ half3 K Kr N (vlen ths) L.
Proof.
  intros HN. unfold xf_kernel_fft, xr_kernel_fft. destruct (str_in _ _); [|discriminate]. destruct (wf_fourier A F name ths L N) as [d|] eqn:E; [|discriminate]. cbn [bind].
  destruct (wfourier_half A F name ths L N d HN E) as (dr & -> & H). cbn [bind]. destruct (ff_weights A name L ths wgl) as [w|]; [|discriminate]. cbn [bind].
  intros E2. now apply (xweigh_half A d); [| |lia].
Qed.

(** ** The spectra *)
Lemma map3_2_same {X} (g : vec X -> vec X) a b i i' P : dim2 a = P -> dim2 b = P -> (forall t k, at3 a i t k = at3 b i' t k) ->
  forall t k, at3 (map3_2 g a) i t k = at3 (map3_2 g b) i' t k.
Proof.
  intros Ha Hb H t k. unfold map3_2. rewrite !at3_arr3, Ha, Hb. replace (fun k0 => at3 a i t k0) with (fun k0 => at3 b i' t k0); [reflexivity|].
  apply functional_extensionality. intros j. symmetry. apply H.
Qed.
Lemma shape_map3_2 {X} (g : vec X -> vec X) a n T P P' : shape a = [n; T; P]%Z -> (forall v, vlen v = P -> vlen (g v) = P') -> shape (map3_2 g a) = [n; T; P']%Z.
Proof.
  intros Ha Hg. unfold map3_2. cbn [arr3 shape]. rewrite Hg by (cbn [vlen]; unfold dim2; now rewrite Ha). unfold dim0, dim1. now rewrite Ha.
Qed.
Lemma self3 {X} (a : ndarray X) n l m : shape a = [n; l; m]%Z -> is_arr3 a n l m (at3 a).
Proof. intros H. split; [exact H|reflexivity]. Qed.

Section Float.
  Variables (A : arith) (u eta : R).
  Hypothesis HA : rounded A u eta.
  Hypothesis HZ : zeros_exact A.
  Hypothesis Hu : u <= / 1000.
  Let u0 : 0 <= u := rd_u _ _ _ HA.
  Let e0 : 0 <= eta := rd_eta _ _ _ HA.

  Lemma neg_plane a b e q B : Cmod (e - q)%C <= B ->
    Cmod (cf_mul A (cf_mul A (Cconj e) (RtoC (sgn a))) (RtoC (sgn b)) - RtoC (sgn (a + b)) * Cconj q)%C <= B + 11 * u * (B + Cmod q) + 17 * eta.
  Proof.
    intros H. set (y := cf_mul A (Cconj e) (RtoC (sgn a))). set (y2 := cf_mul A y (RtoC (sgn b))).
    pose proof (cmul_err A u eta HA Hu (Cconj e) (RtoC (sgn a))) as P2. pose proof (cmul_err A u eta HA Hu y (RtoC (sgn b))) as P3. fold y in P2. fold y2 in P3.
    assert (SG : forall k, Cmod (RtoC (sgn k)) = 1) by (intros k; rewrite Cmod_R; unfold sgn, Rabs; destruct (Z.even k); destruct (Rcase_abs _); lra).
    rewrite SG, Rmult_1_r in P2, P3. rewrite Cmod_Cconj in P2.
    assert (W1 : Cmod e <= B + Cmod q) by (replace e with ((e - q) + q)%C by ring; eapply Rle_trans; [apply Cmod_triangle|]; lra).
    assert (W3 : Cmod y <= Cmod e + Cmod (y - Cconj e * RtoC (sgn a))%C).
    { replace y with (Cconj e * RtoC (sgn a) + (y - Cconj e * RtoC (sgn a)))%C at 1 by ring. eapply Rle_trans; [apply Cmod_triangle|]. rewrite Cmod_mult, SG, Cmod_Cconj. lra. }
    replace (y2 - RtoC (sgn (a + b)) * Cconj q)%C with ((y2 - y * RtoC (sgn b)) + (RtoC (sgn b) * (y - Cconj e * RtoC (sgn a)) + RtoC (sgn (a + b)) * Cconj (e - q)))%C.
    2: { rewrite Cconj_minus', sgn_add, RtoC_mult. ring. }
    eapply Rle_trans; [apply Cmod_triangle|]. eapply Rle_trans; [apply Rplus_le_compat_l, Cmod_triangle|]. rewrite !Cmod_mult, !SG, !Rmult_1_l, Cmod_Cconj.
    pose proof (Cmod_ge_0 e) as E0. set (ae := Cmod e) in *. set (ay := Cmod y) in *.
    assert (ue : 5 * u * ae <= / 200 * ae) by (apply Rmult_le_compat_r; lra).
    assert (AY : ay <= 1005 / 1000 * ae + 8 * eta) by lra.
    apply (Rmult_le_compat_l (5 * u)) in AY; [|lra].
    assert (UE : u * eta <= / 1000 * eta) by (apply Rmult_le_compat_r; lra).
    apply (Rmult_le_compat_l u) in W1; [|lra]. assert (0 <= u * ae) by (now apply Rmult_le_pos). lra.
  Qed.

  (** the planes n >= 0 of both are the same, the others of the second come from them *)
  Definition halves (L N : Z) (flmn0 flmn : ndarray C) : Prop :=
    forall n l m, (0 <= n < N)%Z -> (0 <= l < L)%Z -> (- L < m < L)%Z -> stored3 L N flmn n l m = stored3 L N flmn0 n l m /\
        ((0 < n)%Z -> stored3 L N flmn (- n) l (- m) = cf_mul A (cf_mul A (Cconj (stored3 L N flmn0 n l m)) (RtoC (sgn m))) (RtoC (sgn n))).
  Lemma real_gamma G f N T P : (1 <= N)%Z -> shape f = [2 * N - 1; T; P]%Z -> (forall v, vlen v = 2 * N - 1 -> vlen (G v) = N)%Z ->
    let a0 := map3_0 fftshift (map3_0 (full_fft G) (areal f)) in let b0 := xr_gamma G f in
    shape a0 = [2 * N - 1; T; P]%Z /\ shape b0 = [N; T; P]%Z /\ forall n, (0 <= n < N)%Z -> forall t k, at3 a0 (N - 1 + n) t k = at3 b0 n t k.
  Proof.
    intros HN Hf HG a0 b0.
    assert (D0 : dim0 f = (2 * N - 1)%Z) by (unfold dim0; now rewrite Hf). assert (D1 : dim1 f = T) by (unfold dim1; now rewrite Hf). assert (D2 : dim2 f = P) by (unfold dim2; now rewrite Hf).
    assert (FL : forall v, vlen (full_fft G v) = vlen v) by (intros v; unfold full_fft; now destruct (real_vec v)).
    assert (SA0 : shape a0 = [2 * N - 1; T; P]%Z).
    { unfold a0, map3_0. cbn [arr3 shape]. unfold dim0 at 1, dim1 at 1, dim2 at 1. cbn [arr3 shape nth fftshift vlen].
      unfold areal, dim0, dim1, dim2. cbn [shape]. rewrite FL. cbn [vlen]. unfold dim0, dim1, dim2. cbn [shape]. now rewrite Hf. }
    assert (SB0 : shape b0 = [N; T; P]%Z).
    { unfold b0, xr_gamma. cbn [arr3 shape]. now rewrite HG, D1, D2 by (cbn [vmap vlen]; exact D0). }
    assert (S0 : forall n, (0 <= n < N)%Z -> forall t k, at3 a0 (N - 1 + n) t k = at3 b0 n t k).
    { intros n Hn t k. unfold a0, b0, xr_gamma. unfold map3_0 at 1. unfold at3 at 1 3. cbn [arr3 get nth]. cbn [fftshift vat vlen].
      assert (DM : dim0 (map3_0 (full_fft G) (areal f)) = (2 * N - 1)%Z).
      { unfold map3_0, dim0 at 1. cbn [arr3 shape nth]. rewrite FL. exact D0. }
      rewrite DM. replace ((2 * N - 1) / 2)%Z with (N - 1)%Z by (apply (Z.div_unique _ _ _ 1); lia).
      replace (N - 1 + n - (N - 1))%Z with n by lia. rewrite Z.mod_small by lia.
      unfold map3_0, at3 at 1. cbn [arr3 get nth]. unfold full_fft. replace (dim0 (areal f)) with (dim0 f) by reflexivity.
      set (v := mkVec (dim0 f) (fun i => at3 (areal f) i t k)). replace (real_vec v) with true.
      - cbn [vat vlen v]. unfold v. cbn [vlen]. rewrite D0. replace (n <=? (2 * N - 1) / 2)%Z with true; [reflexivity|].
        replace ((2 * N - 1) / 2)%Z with (N - 1)%Z by (apply (Z.div_unique _ _ _ 1); lia). lia.
      - symmetry. apply real_vec_spec. reflexivity. }
    split; [exact SA0|]. split; [exact SB0|exact S0].
  Qed.
  Lemma real_tail o a3 b3 K Kr L N T flmn0 : (1 <= N <= L)%Z -> sums_all o T -> half3 K Kr N T L -> shape a3 = [2 * N - 1; T; 2 * L - 1]%Z -> shape b3 = [N; T; 2 * L - 1]%Z ->
    (forall n, (0 <= n < N)%Z -> forall t k, at3 a3 (N - 1 + n) t k = at3 b3 n t k) ->
    (let* e := xf_einsum A o K a3 in tail_set (zeros (RtoC 0) (flmn_shape L N)) 0 0 e) = Ok flmn0 ->
    exists flmn, (let* e := xf_einsum A o Kr b3 in let* flmn := tail_set (zeros (RtoC 0) (flmn_shape L N)) (N - 1) 0 e in xr_fill A flmn L N) = Ok flmn /\ shape flmn = [2 * N - 1; L; 2 * L - 1]%Z /\
      halves L N flmn0 flmn.
  Proof.
    intros HN Ho (KS & KSr & HH) SA3 SB3 S3 E0.
    unfold xf_einsum in *. unfold dim0, dim1, dim2, dim3 in E0 |- *. rewrite KS, SA3 in E0. rewrite KSr, SB3. cbn [nth] in *. rewrite !Z.eqb_refl in *. cbn [andb bind] in *.
    set (h0 := fun n l m => cf_sum A o (fun t => cf_mul A (RtoC (at4 K n t l m)) (at3 a3 n t m))) in *.
    set (h1 := fun n l m => cf_sum A o (fun t => cf_mul A (RtoC (at4 Kr n t l m)) (at3 b3 n t m))).
    assert (HS : forall n l m, (0 <= n < N)%Z -> (0 <= l < L)%Z -> (0 <= m < 2 * L - 1)%Z -> h0 (N - 1 + n)%Z l m = h1 n l m).
    { intros n l m Hn Hl Hm. unfold h0, h1. apply cf_sum_ext. intros t Ht. apply (Permutation_in _ Ho), in_zrange in Ht. now rewrite HH, S3 by lia. }
    destruct (tail_set_ok (zeros (RtoC 0) (flmn_shape L N)) (arr3 (2 * N - 1) L (2 * L - 1) h0) (2 * N - 1) L (2 * L - 1) (fun _ _ _ => RtoC 0) h0 0 0) as (x0 & EX0 & HX0); try lia.
    { apply zeros3. } { rewrite !Z.sub_0_r. apply is_arr3_arr3. }
    rewrite EX0 in E0. injection E0 as <-.
    destruct (tail_set_ok (zeros (RtoC 0) (flmn_shape L N)) (arr3 N L (2 * L - 1) h1) (2 * N - 1) L (2 * L - 1) (fun _ _ _ => RtoC 0) h1 (N - 1) 0) as (x1 & EX1 & HX1); try lia.
    { apply zeros3. } { replace (2 * N - 1 - (N - 1))%Z with N by lia. rewrite Z.sub_0_r. apply is_arr3_arr3. }
    rewrite EX1. cbn [bind]. unfold xr_fill. cbv zeta.
    pose proof (amap3_ok Cconj _ _ _ _ _ (map3_2_ok vrev _ _ _ _ (2 * L - 1) _ (map3_0_ok vrev _ _ _ _ (2 * N - 1 - (N - 1 + 1)) _ (planes_from_ok x1 _ _ _ _ (N - 1 + 1) HX1 ltac:(lia))
        vext_vrev ltac:(intros v Hv; exact Hv)) vext_vrev ltac:(intros v Hv; exact Hv))) as H8.
    replace (2 * N - 1 - (N - 1 + 1))%Z with (N - 1)%Z in H8 by lia. set (up := amap Cconj _) in *. clearbody up.
    destruct (is_arr3_dims _ _ _ _ _ H8) as (U0 & U1 & U2). rewrite U0, U1, U2.
    set (up2 := arr3 (N - 1) L (2 * L - 1) (fun n l m => cf_mul A (at3 up n l m) (vat (abs_signs (- L + 1) L) m))).
    change (dim0 up2) with (N - 1)%Z. change (dim1 up2) with L. change (dim2 up2) with (2 * L - 1)%Z.
    destruct (head_set_ok x1 (arr3 (N - 1) L (2 * L - 1) (fun n l m => cf_mul A (at3 up2 n l m) (vat (abs_signs (- N + 1) 0) n))) _ _ _ _ _ (N - 1)%Z HX1 (is_arr3_arr3 _ _ _ _) ltac:(lia)) as (x & EX & HX).
    exists x. split; [exact EX|]. split; [exact (proj1 HX)|]. intros n l m Hn Hl Hm.
    assert (V0 : stored3 L N x0 n l m = h1 n l (m + L - 1)%Z).
    { unfold stored3. pose proof (proj2 HX0 (n + N - 1)%Z l (m + L - 1)%Z ltac:(lia) Hl ltac:(lia)) as Q. unfold at3 in Q.
      rewrite Q. replace ((0 <=? n + N - 1) && (0 <=? m + L - 1))%Z with true by lia. rewrite !Z.sub_0_r. rewrite <- HS by lia. f_equal. lia. }
    split.
    - rewrite V0. unfold stored3. pose proof (proj2 HX (n + N - 1)%Z l (m + L - 1)%Z ltac:(lia) Hl ltac:(lia)) as Q. unfold at3 in Q. rewrite Q.
      replace (n + N - 1 <? N - 1)%Z with false by lia. replace ((N - 1 <=? n + N - 1) && (0 <=? m + L - 1))%Z with true by lia. f_equal; lia.
    - intros Hn0. rewrite V0. unfold stored3. pose proof (proj2 HX (- n + N - 1)%Z l (- m + L - 1)%Z ltac:(lia) Hl ltac:(lia)) as Q. unfold at3 at 1 in Q. rewrite Q.
      replace (- n + N - 1 <? N - 1)%Z with true by lia. unfold up2. rewrite at3_arr3. rewrite (proj2 H8) by lia. cbn [vrev vat vlen abs_signs].
      match goal with |- context [if ?c then _ else _] => replace c with true by lia end. cbv iota. rewrite !sgn_abs.
      replace (sgn (- L + 1 + (- m + L - 1))) with (sgn m) by (rewrite <- (sgn_opp m); f_equal; lia).
      replace (sgn (- N + 1 + (- n + N - 1))) with (sgn n) by (rewrite <- (sgn_opp n); f_equal; lia).
      do 4 f_equal; lia.
  Qed.
  Lemma real_forward s G fftp o f K Kr L N flmn0 : s = DH \/ s = GL -> (1 <= N <= L)%Z -> shape f = [2 * N - 1; rings s L 0; 2 * L - 1]%Z -> sums_all o (rings s L 0) ->
    (forall v, vlen v = 2 * N - 1 -> vlen (G v) = N)%Z -> (forall v, vlen v = 2 * L - 1 -> vlen (fftp v) = 2 * L - 1)%Z -> half3 K Kr N (rings s L 0) L ->
    xf_forward A (full_fft G) fftp o (areal f) K L N (scheme_name s) = Ok flmn0 ->
    exists flmn, xr_forward A G fftp o f Kr L N (scheme_name s) = Ok flmn /\ shape flmn = [2 * N - 1; L; 2 * L - 1]%Z /\
      halves L N flmn0 flmn.
  Proof.
    intros Hs HN Hf Ho HG HP HK E0. set (T := rings s L 0) in *.
    assert (MO : wm_offset (scheme_name s) = 0%Z) by (destruct Hs as [->| ->]; reflexivity).
    unfold xf_forward in E0. unfold xr_forward. rewrite MO in *.
    assert (SI : str_in (lower (scheme_name s)) ["dh"; "gl"]%string = true) by (destruct Hs as [->| ->]; reflexivity). rewrite SI in *. cbn [bind] in *. cbv zeta in *.
    assert (D0 : dim0 f = (2 * N - 1)%Z) by (unfold dim0; now rewrite Hf). assert (D1 : dim1 f = T) by (unfold dim1; now rewrite Hf). assert (D2 : dim2 f = (2 * L - 1)%Z) by (unfold dim2; now rewrite Hf).
    destruct (real_gamma G f N T (2 * L - 1) ltac:(lia) Hf HG) as (SA0 & SB0 & S0).
    set (a0 := map3_0 fftshift (map3_0 (full_fft G) (areal f))) in *. set (b0 := xr_gamma G f) in *.
    assert (SF : forall v : vec C, vlen v = (2 * L - 1)%Z -> vlen (fftshift v) = (2 * L - 1)%Z) by (intros v Hv; exact Hv).
    assert (SL : forall v : vec C, vlen v = (2 * L - 1)%Z -> vlen (vslice v 0 (vlen v)) = (2 * L - 1)%Z).
    { intros v Hv. cbn [vslice vlen]. rewrite Hv, slice_len_in by lia. lia. }
    assert (dim2_shape : forall (X : Type) (a : ndarray X) x y z, shape a = [x; y; z]%Z -> dim2 a = z) by (intros X a x y z Q; unfold dim2; now rewrite Q).
    set (a1 := map3_2 fftp a0) in *. set (b1 := map3_2 fftp b0).
    assert (SA1 : shape a1 = [2 * N - 1; T; 2 * L - 1]%Z) by (now apply (shape_map3_2 _ _ _ _ (2 * L - 1))).
    assert (SB1 : shape b1 = [N; T; 2 * L - 1]%Z) by (now apply (shape_map3_2 _ _ _ _ (2 * L - 1))).
    assert (S1 : forall n, (0 <= n < N)%Z -> forall t k, at3 a1 (N - 1 + n) t k = at3 b1 n t k).
    { intros n Hn. apply (map3_2_same _ _ _ _ _ (2 * L - 1)); [exact (dim2_shape _ _ _ _ _ SA0)|exact (dim2_shape _ _ _ _ _ SB0)|exact (S0 n Hn)]. }
    clearbody a1 b1. clear S0 SA0 SB0. clearbody a0 b0.
    set (a2 := map3_2 fftshift a1) in *. set (b2 := map3_2 fftshift b1).
    assert (SA2 : shape a2 = [2 * N - 1; T; 2 * L - 1]%Z) by (now apply (shape_map3_2 _ _ _ _ (2 * L - 1))).
    assert (SB2 : shape b2 = [N; T; 2 * L - 1]%Z) by (now apply (shape_map3_2 _ _ _ _ (2 * L - 1))).
    assert (S2 : forall n, (0 <= n < N)%Z -> forall t k, at3 a2 (N - 1 + n) t k = at3 b2 n t k).
    { intros n Hn. apply (map3_2_same _ _ _ _ _ (2 * L - 1)); [exact (dim2_shape _ _ _ _ _ SA1)|exact (dim2_shape _ _ _ _ _ SB1)|exact (S1 n Hn)]. }
    clearbody a2 b2. clear S1 SA1 SB1.
    set (a3 := last_from a2 0) in *. set (b3 := last_from b2 0).
    assert (SA3 : shape a3 = [2 * N - 1; T; 2 * L - 1]%Z) by (now apply (shape_map3_2 _ _ _ _ (2 * L - 1))).
    assert (SB3 : shape b3 = [N; T; 2 * L - 1]%Z) by (now apply (shape_map3_2 _ _ _ _ (2 * L - 1))).
    assert (S3 : forall n, (0 <= n < N)%Z -> forall t k, at3 a3 (N - 1 + n) t k = at3 b3 n t k).
    { intros n Hn. apply (map3_2_same _ _ _ _ _ (2 * L - 1)); [exact (dim2_shape _ _ _ _ _ SA2)|exact (dim2_shape _ _ _ _ _ SB2)|exact (S2 n Hn)]. }
    clearbody a3 b3. clear S2 SA2 SB2.
    exact (real_tail o a3 b3 K Kr L N T flmn0 HN Ho HK SA3 SB3 S3 E0).
  Qed.

  Lemma so3_term L N c n l m : (- N < n < N)%Z -> (Z.abs n <= l < L)%Z -> (- l <= m <= l)%Z -> Cmod (c n l m) <= 8 * PI ^ 2 * so3_size L N c.
  Proof.
    intros Hn Hl Hm. pose proof PI_3 as P3. assert (P9 : 9 <= PI ^ 2) by (cbn; nra).
    assert (W : forall l', (0 <= l')%Z -> 0 < (2 * IZR l' + 1) / (8 * PI ^ 2)) by (intros l' Hl'; apply Rdiv_lt_0_compat; [apply IZR_le in Hl'; lra|lra]).
    assert (T : (2 * IZR l + 1) / (8 * PI ^ 2) * Cmod (c n l m) <= so3_size L N c).
    { unfold so3_size. eapply Rle_trans; [|apply (rr_term (- (N - 1)) N n)]; [|intros y Hy; apply rs_nonneg; intros l' Hl'; apply in_zrange in Hl'; apply rs_nonneg; intros m' _; apply Rmult_le_pos; [left; apply W; lia|apply Cmod_ge_0]|lia].
      cbv beta. eapply Rle_trans; [|apply (rr_term (Z.abs n) L l)]; [|intros l' Hl'; apply rs_nonneg; intros m' _; apply Rmult_le_pos; [left; apply W; lia|apply Cmod_ge_0]|lia].
      cbv beta. apply (rr_term (- l) (l + 1) m (fun m' => (2 * IZR l + 1) / (8 * PI ^ 2) * Cmod (c n l m'))); [|lia].
      intros m' _. apply Rmult_le_pos; [left; apply W; lia|apply Cmod_ge_0]. }
    apply (Rmult_le_compat_l (8 * PI ^ 2)) in T; [|lra]. eapply Rle_trans; [|exact T].
    replace (8 * PI ^ 2 * ((2 * IZR l + 1) / (8 * PI ^ 2) * Cmod (c n l m))) with ((2 * IZR l + 1) * Cmod (c n l m)) by (field; lra).
    assert (0 <= IZR l) by (apply IZR_le; lia). pose proof (Cmod_ge_0 (c n l m)) as C0. nra.
  Qed.
  (** the error of all planes from that of the planes of the full transform *)
  Lemma real_bound L N flmn0 flmn c B : (1 <= N <= L)%Z -> halves L N flmn0 flmn -> hermitian3 L N c -> 0 <= B ->
    (forall n l m, (- N < n < N)%Z -> (0 <= l < L)%Z -> (- L < m < L)%Z ->
      ((Z.abs m <= l)%Z -> (Z.abs n <= l)%Z -> Cmod (stored3 L N flmn0 n l m - c n l m)%C <= B) /\ ((l < Z.abs m \/ l < Z.abs n)%Z -> stored3 L N flmn0 n l m = RtoC 0)) ->
    forall n l m, (- N < n < N)%Z -> (0 <= l < L)%Z -> (- L < m < L)%Z ->
      ((Z.abs m <= l)%Z -> (Z.abs n <= l)%Z -> Cmod (stored3 L N flmn n l m - c n l m)%C <= B + 11 * u * (B + 8 * PI ^ 2 * so3_size L N c) + 17 * eta) /\
      ((l < Z.abs m \/ l < Z.abs n)%Z -> stored3 L N flmn n l m = RtoC 0).
  Proof.
    intros HN H Hc B0 H0 n l m Hn Hl Hm. destruct (Z.ltb_spec n 0).
    - destruct (H (- n)%Z l (- m)%Z ltac:(lia) Hl ltac:(lia)) as [_ HV]. specialize (HV ltac:(lia)). rewrite !Z.opp_involutive in HV. rewrite HV.
      destruct (H0 (- n)%Z l (- m)%Z ltac:(lia) Hl ltac:(lia)) as [B1 B2]. rewrite !Z.abs_opp in B1, B2. split.
      + intros M1 M2. specialize (B1 M1 M2).
        pose proof (Hc (- n)%Z l (- m)%Z ltac:(lia) ltac:(lia) ltac:(lia)) as HC. rewrite !Z.opp_involutive in HC. rewrite HC.
        eapply Rle_trans; [exact (neg_plane (- m) (- n) _ _ _ B1)|].
        pose proof (so3_term L N c (- n) l (- m) ltac:(lia) ltac:(lia) ltac:(lia)) as CS. apply (Rmult_le_compat_l (11 * u)) in CS; lra.
      + intros O. rewrite (B2 ltac:(lia)). rewrite Cconj_R. now rewrite (cf_mul_zero_l A HZ), (cf_mul_zero_l A HZ).
    - destruct (H n l m ltac:(lia) Hl Hm) as [HV _]. rewrite HV. destruct (H0 n l m Hn Hl Hm) as [B1 B2]. split; [|exact B2]. intros M1 M2. specialize (B1 M1 M2).
      assert (0 <= 11 * u * (B + 8 * PI ^ 2 * so3_size L N c)) by (apply Rmult_le_pos; [lra|]; assert (0 <= 8 * PI ^ 2 * so3_size L N c) by (apply Rmult_le_pos; [pose proof (pow2_ge_0 PI); lra|apply so3_size_nonneg]); lra). lra.
  Qed.

  (** the coefficients of a real signal from those of the full transform of the real parts *)
  Lemma real_coefficients s G fftp o f K Kr L N flmn0 c k kap d : s = DH \/ s = GL -> (1 <= N <= L)%Z -> shape f = [2 * N - 1; rings s L 0; 2 * L - 1]%Z -> sums_all o (rings s L 0) ->
    (forall v, vlen v = 2 * N - 1 -> vlen (G v) = N)%Z -> (forall v, vlen v = 2 * L - 1 -> vlen (fftp v) = 2 * L - 1)%Z -> half3 K Kr N (rings s L 0) L ->
    xf_forward A (full_fft G) fftp o (areal f) K L N (scheme_name s) = Ok flmn0 ->
    hermitian3 L N c -> 8 * PI ^ 2 <= k -> 0 <= kap <= 3 -> 0 <= d ->
    (forall n l m, (- N < n < N)%Z -> (0 <= l < L)%Z -> (- L < m < L)%Z ->
      ((Z.abs m <= l)%Z -> (Z.abs n <= l)%Z -> Cmod (stored3 L N flmn0 n l m - c n l m)%C <= k * (kap * (so3_size L N c + d) + d + IZR L * eta)) /\
      ((l < Z.abs m \/ l < Z.abs n)%Z -> stored3 L N flmn0 n l m = RtoC 0)) ->
    exists flmn, xr_forward A G fftp o f Kr L N (scheme_name s) = Ok flmn /\ shape flmn = [2 * N - 1; L; 2 * L - 1]%Z /\
      forall n l m, (- N < n < N)%Z -> (0 <= l < L)%Z -> (- L < m < L)%Z ->
        ((Z.abs m <= l)%Z -> (Z.abs n <= l)%Z -> Cmod (stored3 L N flmn n l m - c n l m)%C <= k * ((kap + 55 * u) * (so3_size L N c + d) + d + 2 * IZR L * eta)) /\
        ((l < Z.abs m \/ l < Z.abs n)%Z -> stored3 L N flmn n l m = RtoC 0).
  Proof.
    intros Hs HN Hf Ho HG HP HH E0 Hc Hk Hkap Hd H0.
    destruct (real_forward s G fftp o f K Kr L N flmn0 Hs HN Hf Ho HG HP HH E0) as (flmn & E & Sh & H).
    exists flmn. split; [exact E|]. split; [exact Sh|].
    pose proof (so3_size_nonneg L N c) as S0. set (S := so3_size L N c) in *. assert (L1 : 1 <= IZR L) by (apply IZR_le; lia).
    pose proof PI_3 as P3. assert (P9 : 9 <= PI ^ 2) by (cbn; nra).
    assert (LE : eta <= IZR L * eta) by (rewrite <- (Rmult_1_l eta) at 1; apply Rmult_le_compat_r; lra).
    assert (KE : 72 * eta <= k * eta) by (apply Rmult_le_compat_r; lra).
    assert (KLE : k * eta <= k * (IZR L * eta)) by (apply Rmult_le_compat_l; lra).
    assert (KS : 0 <= kap * (S + d)) by (apply Rmult_le_pos; lra).
    pose proof (real_bound L N flmn0 flmn c _ HN H Hc (Rmult_le_pos k (kap * (S + d) + d + IZR L * eta) ltac:(lra) ltac:(lra)) H0) as Q. fold S in Q.
    intros n l m Hn Hl Hm. destruct (Q n l m Hn Hl Hm) as [Q1 Q2]. split; [|exact Q2]. intros M1 M2. eapply Rle_trans; [exact (Q1 M1 M2)|]. clear Q Q1 Q2.
    set (E1 := IZR L * eta) in *.
    assert (I : kap * (S + d) + d + E1 <= 4 * (S + d) + E1).
    { assert (kap * (S + d) <= 3 * (S + d)) by (apply Rmult_le_compat_r; lra). lra. }
    apply (Rmult_le_compat_l k) in I; [|lra]. assert (CS : 8 * PI ^ 2 * S <= k * (S + d)) by (apply Rmult_le_compat; lra).
    assert (R1 : 11 * u * (k * (kap * (S + d) + d + E1) + 8 * PI ^ 2 * S) <= 11 * u * (k * (4 * (S + d) + E1) + k * (S + d))) by (apply Rmult_le_compat_l; lra).
    assert (R2 : u * (k * E1) <= / 1000 * (k * E1)) by (apply Rmult_le_compat_r; lra).
    replace (2 * IZR L * eta) with (2 * E1) by (unfold E1; ring). lra.
  Qed.
End Float.

Lemma real_samples f L N T (c : Z -> Z -> Z -> C) (a b g : Z -> R) d : hermitian3 L N c -> shape f = [2 * N - 1; T; 2 * L - 1]%Z ->
  (forall i t p, (0 <= i < 2 * N - 1)%Z -> (0 <= t < T)%Z -> (0 <= p < 2 * L - 1)%Z -> Cmod (get f [i; t; p] - so3_synth L N c (a p) (b t) (g i))%C <= d) ->
  forall i t p, (0 <= i < 2 * N - 1)%Z -> (0 <= t < T)%Z -> (0 <= p < 2 * L - 1)%Z -> Cmod (get (areal f) [i; t; p] - so3_synth L N c (a p) (b t) (g i))%C <= d.
Proof.
  intros Hc _ H i t p Hi Ht Hp. unfold areal. cbn [get]. eapply Rle_trans; [apply Re_closer, so3_synth_real, Hc|]. now apply H.
Qed.
