(** The precomputed forward Wigner transform of real signals on the mw and mwss grids in rounded arithmetic. *)
From Coq Require Import Reals Lra Lia ZifyBool Permutation FunctionalExtensionality.
From Coquelicot Require Import Complex.
From Verif Require Import Lib.Py Lib.PyFacts Lib.Vec Lib.VecFacts Lib.Sums Lib.Cplx Lib.Arr Lib.ArrFacts Lib.MatFacts Model.Index Model.Samples Model.FFT
  Model.RisboFloat Model.Spherical Model.Precompute Model.PrecomputeFloat Model.ForwardFloat Model.ResamplingFloat Model.ForwardMWFloat Model.Wigner Model.FourierWigner Model.PrecomputeWigner
  Model.WignerFloat Model.WignerForwardFloat Model.WignerForwardMWFloat Model.WignerRealFloat Model.WignerRealForwardFloat Model.WignerRealForwardMWFloat
  Spec.SamplesSpec Spec.WignerSpec Spec.SphereSpec Spec.GridSpec Spec.SphericalSpec Spec.SO3Spec Spec.RoundingSpec Spec.PrecomputeFloatSpec Spec.ForwardFloatSpec Spec.ResamplingFloatSpec
  Spec.WignerFloatSpec Spec.WignerForwardFloatSpec Spec.RealFloatSpec
  Proofs.L2Norm Proofs.FloatKernel Proofs.FloatResampling Proofs.FloatResamplingTop Proofs.FloatMWForward Proofs.FloatMWTop Proofs.PrecomputeKernel Proofs.FWArrays Proofs.PWForward Proofs.FloatWigner Proofs.FloatWignerMW Proofs.FloatWignerMWTop
  Proofs.FloatReal Proofs.FloatWignerReal Proofs.FloatWignerRealForward.
Open Scope R_scope.

Lemma mf_thetas_length A L gl s name ths : s = MW \/ s = MWSS -> mf_thetas A (scheme_name s) L gl = Ok (name, ths) -> vlen ths = (2 * L + 1)%Z.
Proof. intros [->| ->] E; unfold mf_thetas, pf_thetas in E; cbn [bind scheme_name] in E; cbn in E; injection E as _ <-; reflexivity. Qed.
Lemma qkernel_half A fft s gl wgl L N K : s = MW \/ s = MWSS -> (1 <= N <= L)%Z -> xm_kernel A fft (scheme_name s) gl wgl L N = Ok K ->
  exists Kr, xq_kernel A fft (scheme_name s) gl wgl L N = Ok Kr /\ half3 K Kr N (2 * L + 1) L.
Proof.
  intros Hs HN. unfold xm_kernel, xq_kernel. destruct (mf_thetas A (scheme_name s) L gl) as [[name ths]|] eqn:ET; [|discriminate]. cbn [bind].
  destruct (wf_direct A ths L N) as [d|] eqn:E; [|discriminate]. cbn [bind].
  destruct (wdirect_half A ths L N d HN E) as (dr & -> & H). cbn [bind]. destruct (mf_weights A fft name L ths wgl) as [w|]; [|discriminate]. cbn [bind].
  rewrite (mf_thetas_length A L gl s name ths Hs ET) in H. intros E2. now apply (xweigh_half A d); [| |lia].
Qed.
Lemma qkernel_fft_half A F fft s gl wgl L N K : s = MW \/ s = MWSS -> (1 <= N <= L)%Z -> xm_kernel_fft A F fft (scheme_name s) gl wgl L N = Ok K ->
  exists Kr, xq_kernel_fft A F fft (scheme_name s) gl wgl L N = Ok Kr /\ half3 K Kr N (2 * L + 1) L.
Proof.
  intros Hs HN. unfold xm_kernel_fft, xq_kernel_fft. destruct (str_in _ _); [|discriminate]. destruct (mf_thetas A (scheme_name s) L gl) as [[name ths]|] eqn:ET; [|discriminate]. cbn [bind].
  destruct (wf_fourier A F name ths L N) as [d|] eqn:E; [|discriminate]. cbn [bind].
  destruct (wfourier_half A F name ths L N d HN E) as (dr & -> & H). cbn [bind]. destruct (mf_weights A fft name L ths wgl) as [w|]; [|discriminate]. cbn [bind].
  rewrite (mf_thetas_length A L gl s name ths Hs ET) in H. intros E2. now apply (xweigh_half A d); [| |lia].
Qed.

Lemma Ok_same {X} (x y : X) : Ok x = Ok y -> x = y.
Proof. intros H. now injection H. Qed.
Lemma pl_at3 (r : ndarray C) i t k : at3 r i t k = get (pl r i) [t; k].
Proof. reflexivity. Qed.
Lemma planes_half (g : Z -> ndarray C -> result (ndarray C)) a b N sh sh' : (1 <= N)%Z -> shape a = (2 * N - 1)%Z :: sh -> shape b = N :: sh ->
  (forall k p, shape p = sh -> exists q, g k p = Ok q /\ shape q = sh') -> (forall n, (0 <= n < N)%Z -> pl a (N - 1 + n) = pl b n) ->
  exists r r', map_planes (fun k p => g (- (1 - N + k))%Z p) a = Ok r /\ map_planes (fun k p => g (- k)%Z p) b = Ok r' /\
    shape r = (2 * N - 1)%Z :: sh' /\ shape r' = N :: sh' /\ forall n, (0 <= n < N)%Z -> pl r (N - 1 + n) = pl r' n.
Proof.
  intros HN Ha Hb Hg Hp.
  destruct (map_planes_ok (fun k p => g (- (1 - N + k))%Z p) a (2 * N - 1) sh sh' Ha ltac:(lia)) as (r & E & Sr & H).
  { intros k Hk. apply Hg. unfold pl. cbn [shape]. now rewrite Ha. }
  destruct (map_planes_ok (fun k p => g (- k)%Z p) b N sh sh' Hb ltac:(lia)) as (r' & E' & Sr' & H').
  { intros k Hk. apply Hg. unfold pl. cbn [shape]. now rewrite Hb. }
  exists r, r'. repeat (split; [assumption|]). intros n Hn. specialize (H (N - 1 + n)%Z ltac:(lia)). specialize (H' n Hn). cbv beta in H, H'.
  rewrite Hp in H by exact Hn. replace (- (1 - N + (N - 1 + n)))%Z with (- n)%Z in H by lia. rewrite H in H'. exact (Ok_same _ _ H').
Qed.

Section Float.
  Variables (A : arith) (u eta : R).
  Hypothesis HA : rounded A u eta.
  Hypothesis HZ : zeros_exact A.
  Hypothesis Hu : u <= / 1000.

  Lemma rel_self a n m : shape a = [n; m]%Z -> exists s d, rel a a n m s d.
  Proof. intros H. eexists _, _. split; [exact H|]. split; [exact H|]. split; apply Rle_refl. Qed.

  Lemma real_forward_mw S s G fftp o f K Kr L N eps flmn0 : s = MW \/ s = MWSS -> (2 <= N <= L)%Z -> 0 <= eps <= / 100 -> 4 * IZR L * eta <= u ->
    transforms_accurate S (2 * L - 1) eps -> transforms_accurate S (2 * L) eps -> transforms_accurate S (4 * L) eps ->
    shape f = [2 * N - 1; rings s L 0; per_ring s L]%Z -> sums_all o (2 * L + 1) ->
    (forall v, vlen v = 2 * N - 1 -> vlen (G v) = N)%Z -> (forall v, vlen v = 2 * L -> vlen (fftp v) = 2 * L)%Z -> half3 K Kr N (2 * L + 1) L ->
    xm_forward A S (full_fft G) fftp o (areal f) K L N (scheme_name s) = Ok flmn0 ->
    exists flmn, xq_forward A S G fftp o f Kr L N (scheme_name s) = Ok flmn /\ shape flmn = [2 * N - 1; L; 2 * L - 1]%Z /\ halves A L N flmn0 flmn.
  Proof.
    intros Hs HN Heps HE H1 H2 H4 Hf Ho HG HP HK E0.
    assert (SI : str_in (lower (scheme_name s)) ["mw"; "mwss"]%string = true) by (destruct Hs as [->| ->]; reflexivity).
    unfold xm_forward in E0. unfold xq_forward. rewrite SI in *. cbn [bind] in *. cbv zeta in *.
    destruct (real_gamma G f N (rings s L 0) (per_ring s L) ltac:(lia) Hf HG) as (SA0 & SB0 & S0).
    assert (P0 : forall n, (0 <= n < N)%Z -> pl (map3_0 fftshift (map3_0 (full_fft G) (areal f))) (N - 1 + n) = pl (xr_gamma G f) n).
    { intros n Hn. unfold pl. rewrite SA0, SB0. cbn [tl]. f_equal. apply functional_extensionality. intros ix. exact (S0 n Hn (nth 0 ix 0%Z) (nth 1 ix 0%Z)). }
    set (a0 := map3_0 fftshift (map3_0 (full_fft G) (areal f))) in *. set (b0 := xr_gamma G f) in *. clearbody a0 b0. clear S0.
    unfold dim0 in E0 at 1. unfold dim0 at 1. rewrite SA0 in E0. rewrite SB0. cbn [nth] in *. rewrite !Z.eqb_refl in *. cbn [bind] in *.
    assert (R1 : exists r r', (if streq (lower (scheme_name s)) "mw" then map_planes (fun k p => rs_mw_to_mwss A S p L (- (1 - N + k))) a0 else Ok a0) = Ok r /\
      (if streq (lower (scheme_name s)) "mw" then map_planes (fun k p => rs_mw_to_mwss A S p L (- k)) b0 else Ok b0) = Ok r' /\
      shape r = [2 * N - 1; L + 1; 2 * L]%Z /\ shape r' = [N; L + 1; 2 * L]%Z /\ forall n, (0 <= n < N)%Z -> pl r (N - 1 + n) = pl r' n).
    { destruct Hs as [->| ->]; cbn [scheme_name rings per_ring] in *.
      - change (streq (lower "mw") "mw") with true. cbv iota.
        apply (planes_half (fun k p => rs_mw_to_mwss A S p L k) a0 b0 N [L; 2 * L - 1]%Z [L + 1; 2 * L]%Z ltac:(lia) SA0 SB0); [|exact P0].
        intros k p Hp. destruct (rel_self p L (2 * L - 1) Hp) as (x & d & RL).
        destruct (mw_to_mwss_near A u eta HA Hu S L k eps ltac:(lia) Heps p p x d H1 H2 HE RL) as (q & e' & Q & _ & R2). exists q. split; [exact Q|exact (proj1 R2)].
      - change (streq (lower "mwss") "mw") with false. cbv iota. exists a0, b0. repeat split; assumption. }
    destruct R1 as (r1 & r1' & E1 & E1' & SA1 & SB1 & P1). rewrite E1 in E0. rewrite E1'. cbn [bind] in *.
    destruct (planes_half (fun k p => rs_upsample A S p L k) r1 r1' N [L + 1; 2 * L]%Z [2 * L + 1; 2 * L]%Z ltac:(lia) SA1 SB1) as (r2 & r2' & E2 & E2' & SA2 & SB2 & P2); [|exact P1|].
    { intros k p Hp. destruct (rel_self p (L + 1) (2 * L) Hp) as (x & d & RL).
      destruct (upsample_near A u eta HA Hu S L k eps ltac:(lia) Heps p p x d H2 H4 RL) as (q & e' & Q & _ & R2). exists q. split; [exact Q|exact (proj1 R2)]. }
    rewrite E2 in E0. rewrite E2'. cbn [bind] in *.
    assert (Q1 : squeeze0 r2 = r2) by (unfold squeeze0, dim0; rewrite SA2; cbn [nth]; replace (2 * N - 1 =? 1)%Z with false by lia; reflexivity).
    assert (Q2 : squeeze0 r2' = r2') by (unfold squeeze0, dim0; rewrite SB2; cbn [nth]; replace (N =? 1)%Z with false by lia; reflexivity).
    rewrite Q1 in E0. rewrite Q2. unfold xm_rings in E0. unfold xq_rings. rewrite SA2 in E0. rewrite SB2. change (negb (Z.of_nat (List.length [2 * N - 1; 2 * L + 1; 2 * L]%Z) =? 3)%Z) with false in E0.
    change (negb (Z.of_nat (List.length [N; 2 * L + 1; 2 * L]%Z) =? 3)%Z) with false. cbv iota zeta in *. change (wm_offset "mwss") with 1%Z in *.
    assert (dim2_shape : forall (X : Type) (a : ndarray X) x y z, shape a = [x; y; z]%Z -> dim2 a = z) by (intros X a x y z Q; unfold dim2; now rewrite Q).
    assert (S2 : forall n, (0 <= n < N)%Z -> forall t k, at3 r2 (N - 1 + n) t k = at3 r2' n t k) by (intros n Hn t k; now rewrite !pl_at3, P2).
    set (a1 := map3_2 fftp r2) in *. set (b1 := map3_2 fftp r2').
    assert (SA3 : shape a1 = [2 * N - 1; 2 * L + 1; 2 * L]%Z) by (now apply (shape_map3_2 _ _ _ _ (2 * L))).
    assert (SB3 : shape b1 = [N; 2 * L + 1; 2 * L]%Z) by (now apply (shape_map3_2 _ _ _ _ (2 * L))).
    assert (S3 : forall n, (0 <= n < N)%Z -> forall t k, at3 a1 (N - 1 + n) t k = at3 b1 n t k).
    { intros n Hn. apply (map3_2_same _ _ _ _ _ (2 * L)); [exact (dim2_shape _ _ _ _ _ SA2)|exact (dim2_shape _ _ _ _ _ SB2)|exact (S2 n Hn)]. }
    clearbody a1 b1.
    set (a2 := map3_2 fftshift a1) in *. set (b2 := map3_2 fftshift b1).
    assert (SA4 : shape a2 = [2 * N - 1; 2 * L + 1; 2 * L]%Z) by (apply (shape_map3_2 _ _ _ _ (2 * L)); [exact SA3|intros v Hv; exact Hv]).
    assert (SB4 : shape b2 = [N; 2 * L + 1; 2 * L]%Z) by (apply (shape_map3_2 _ _ _ _ (2 * L)); [exact SB3|intros v Hv; exact Hv]).
    assert (S4 : forall n, (0 <= n < N)%Z -> forall t k, at3 a2 (N - 1 + n) t k = at3 b2 n t k).
    { intros n Hn. apply (map3_2_same _ _ _ _ _ (2 * L)); [exact (dim2_shape _ _ _ _ _ SA3)|exact (dim2_shape _ _ _ _ _ SB3)|exact (S3 n Hn)]. }
    clearbody a2 b2.
    assert (SL : forall v : vec C, vlen v = (2 * L)%Z -> vlen (vslice v 1 (vlen v)) = (2 * L - 1)%Z).
    { intros v Hv. cbn [vslice vlen]. rewrite Hv, slice_len_in by lia. lia. }
    refine (real_tail A o (last_from a2 1) (last_from b2 1) K Kr L N (2 * L + 1) flmn0 ltac:(lia) Ho HK _ _ _ E0).
    - now apply (shape_map3_2 _ _ _ _ (2 * L)).
    - now apply (shape_map3_2 _ _ _ _ (2 * L)).
    - intros n Hn. apply (map3_2_same _ _ _ _ _ (2 * L)); [exact (dim2_shape _ _ _ _ _ SA4)|exact (dim2_shape _ _ _ _ _ SB4)|exact (S4 n Hn)].
  Qed.

  (** the coefficients of a real signal, with a bound of the kind of C76 *)
  Lemma real_mw_bound L N flmn0 flmn c a b g : (1 <= N <= L)%Z -> u <= / 10000 -> halves A L N flmn0 flmn -> hermitian3 L N c -> 0 <= a <= 4 -> 0 <= b -> 0 <= g ->
    (forall n l m, (- N < n < N)%Z -> (0 <= l < L)%Z -> (- L < m < L)%Z ->
      ((Z.abs m <= l)%Z -> (Z.abs n <= l)%Z -> Cmod (stored3 L N flmn0 n l m - c n l m)%C <= 54 * PI ^ 2 * (a * so3_size L N c + b + g * (IZR L * eta))) /\
      ((l < Z.abs m \/ l < Z.abs n)%Z -> stored3 L N flmn0 n l m = RtoC 0)) ->
    forall n l m, (- N < n < N)%Z -> (0 <= l < L)%Z -> (- L < m < L)%Z ->
      ((Z.abs m <= l)%Z -> (Z.abs n <= l)%Z -> Cmod (stored3 L N flmn n l m - c n l m)%C <=
        54 * PI ^ 2 * ((a + 46 * u) * so3_size L N c + (1 + 11 / 10000) * b + ((1 + 11 / 10000) * g + 1 / 10) * (IZR L * eta))) /\
      ((l < Z.abs m \/ l < Z.abs n)%Z -> stored3 L N flmn n l m = RtoC 0).
  Proof.
    intros HN Hu' H Hc Ha Hb Hg H0. pose proof (rd_u _ _ _ HA) as u0. pose proof (rd_eta _ _ _ HA) as e0.
    pose proof (so3_size_nonneg L N c) as S0. set (S := so3_size L N c) in *. assert (L1 : 1 <= IZR L) by (apply IZR_le; lia).
    pose proof SphAngles.PI_3 as P3. assert (P9 : 9 <= PI ^ 2) by (cbn; nra).
    assert (LE : eta <= IZR L * eta) by (rewrite <- (Rmult_1_l eta) at 1; apply Rmult_le_compat_r; lra). set (E1 := IZR L * eta) in *.
    assert (AS : 0 <= a * S) by (apply Rmult_le_pos; lra). assert (GE : 0 <= g * E1) by (apply Rmult_le_pos; lra).
    pose proof (real_bound A u eta HA HZ Hu L N flmn0 flmn c _ HN H Hc (Rmult_le_pos (54 * PI ^ 2) (a * S + b + g * E1) ltac:(lra) ltac:(lra)) H0) as Q. fold S in Q.
    intros n l m Hn Hl Hm. destruct (Q n l m Hn Hl Hm) as [Q1 Q2]. split; [|exact Q2]. intros M1 M2. eapply Rle_trans; [exact (Q1 M1 M2)|]. clear Q Q1 Q2 H0.
    set (k := 54 * PI ^ 2) in *. assert (K9 : 486 <= k) by (unfold k; lra). replace (8 * PI ^ 2 * S) with (k * (8 / 54 * S)) by (unfold k; field).
    assert (T1 : 17 * eta <= k * (1 / 20 * E1)).
    { apply Rle_trans with (486 * (1 / 20 * E1)); [lra|]. apply Rmult_le_compat_r; lra. }
    assert (T2 : u * (a * S) <= u * (4 * S)) by (apply Rmult_le_compat_l; [exact u0|]; apply Rmult_le_compat_r; lra).
    assert (T3 : u * b <= / 10000 * b) by (apply Rmult_le_compat_r; lra). assert (T4 : u * (g * E1) <= / 10000 * (g * E1)) by (apply Rmult_le_compat_r; lra).
    assert (US : 0 <= u * S) by (apply Rmult_le_pos; lra).
    apply Rle_trans with (k * (a * S + b + g * E1 + 11 * u * (a * S + b + g * E1 + 8 / 54 * S) + 1 / 20 * E1)); [lra|]. apply Rmult_le_compat_l; [lra|]. lra.
  Qed.
End Float.
