(** The precomputed inverse transform in rounded arithmetic, from the colatitudes to the map. *)
From Coq Require Import Reals Lra Lia ZifyBool.
From Coquelicot Require Import Complex.
From Flocq Require Import Core.
From Verif Require Import Lib.Py Lib.PyFacts Lib.Vec Lib.VecFacts Lib.Sums Lib.Cplx Lib.Arr Lib.ArrFacts Lib.MatFacts Model.Index Model.Samples Model.FFT Model.Risbo
  Model.RisboFloat Model.Spherical Model.Precompute Model.PrecomputeFloat
  Spec.SamplesSpec Spec.WignerSpec Spec.SphereSpec Spec.GridSpec Spec.SphericalSpec Spec.RoundingSpec Spec.PrecomputeFloatSpec
  Proofs.SpectralBound Proofs.RisboFloatProofs Proofs.FloatKernel Proofs.FloatInverse Proofs.FloatFourier Proofs.CBackendBound.
Open Scope R_scope.

Lemma synth_lip L s c x y phi : (1 <= L)%Z -> (Z.abs s <= L)%Z ->
  Cmod (synth L s c x phi - synth L s c y phi)%C <= IZR L * Rabs (x - y) * signal_size L s c.
Proof.
  intros HL Hs. unfold synth, signal_size.
  replace (csum (zrange (Z.abs s) L) (fun l => csum (zrange (- l) (l + 1)) (fun m => (c l m * sYlm s l m x phi)%C)) -
    csum (zrange (Z.abs s) L) (fun l => csum (zrange (- l) (l + 1)) (fun m => (c l m * sYlm s l m y phi)%C)))%C
    with (csum (zrange (Z.abs s) L) (fun l => csum (zrange (- l) (l + 1)) (fun m => c l m * (sYlm s l m x phi - sYlm s l m y phi))))%C.
  - rewrite <- rs_scal_l. apply csum_le. intros l Hl. apply in_zrange in Hl.
    rewrite <- rs_scal_l. apply csum_le. intros m Hm. apply in_zrange in Hm. rewrite Cmod_mult.
    replace (sYlm s l m x phi - sYlm s l m y phi)%C with (RtoC (sgn s * elfactor l * (wigner_d l m (- s) x - wigner_d l m (- s) y)) * cis (IZR m * phi))%C
      by (unfold sYlm, elfactor; rewrite ?RtoC_mult, ?RtoC_minus, ?RtoC_mult; ring).
    rewrite Cmod_mult, Cmod_cis, Cmod_R, !Rabs_mult. fold (elfactor l). pose proof (elfactor_lower l ltac:(lia)) as E.
    rewrite (Rabs_right (elfactor l)) by lra. assert (M : Rabs (sgn s) = 1) by (unfold sgn; destruct (Z.even s); unfold Rabs; destruct Rcase_abs; lra).
    rewrite M. pose proof (wigner_lip l m (- s) x y ltac:(lia)) as W. assert (W2 : IZR (l + 1) <= IZR L) by (apply IZR_le; lia).
    pose proof (Rabs_pos (x - y)) as P. pose proof (Cmod_ge_0 (c l m)) as C0.
    assert (W3 : Rabs (wigner_d l m (- s) x - wigner_d l m (- s) y) <= IZR L * Rabs (x - y)).
    { eapply Rle_trans; [exact W|]. now apply Rmult_le_compat_r. }
    replace (IZR L * Rabs (x - y) * (elfactor l * Cmod (c l m))) with (Cmod (c l m) * (1 * elfactor l * (IZR L * Rabs (x - y)) * 1)) by ring.
    apply Rmult_le_compat_l; [exact C0|]. apply Rmult_le_compat_r; [lra|]. apply Rmult_le_compat_l; [lra|exact W3].
  - rewrite <- cs_minus. apply cr_ext. intros l Hl. rewrite <- cs_minus. apply cr_ext. intros m Hm. ring.
Qed.
Lemma signal_size_nonneg L s c : 0 <= signal_size L s c.
Proof.
  apply rs_nonneg. intros l _. apply rs_nonneg. intros m _. apply Rmult_le_pos; [apply sqrt_pos|apply Cmod_ge_0].
Qed.

Section Float.
  Variables (A : arith) (u eta : R).
  Hypothesis HA : rounded A u eta.
  Hypothesis HZ : zeros_exact A.
  Let u0 : 0 <= u := rd_u _ _ _ HA.
  Let e0 : 0 <= eta := rd_eta _ _ _ HA.
  Variables (F : ffts) (L spin : Z) (eps : R).
  Hypothesis HL : (1 <= L)%Z.
  Hypothesis Hs : (Z.abs spin < L)%Z.
  Hypothesis HB : 2000 * u * (IZR L * (2 * IZR L + 3)) <= 1.
  Hypothesis HE : 4 * IZR L * eta <= u.
  Hypothesis Heps : 0 <= eps <= / 20.
  Definition kap : R := 1000 * u * (IZR L * (2 * IZR L + 3)) + 9 * eps.
  Lemma small : u <= / 1000 /\ 4 * eta <= u /\ fbound u L <= / 10 /\ IZR (2 * L) * eta <= u /\ 1 <= IZR L /\ u * IZR L * 10000 <= 1.
  Proof.
    assert (L1 : 1 <= IZR L) by (apply IZR_le; lia). unfold fbound. rewrite !mult_IZR, plus_IZR, mult_IZR.
    assert (0 <= u * IZR L) by (apply Rmult_le_pos; lra). assert (0 <= IZR L * eta) by (apply Rmult_le_pos; lra).
    assert (5 <= IZR L * (2 * IZR L + 3)) by nra. assert (u * 5 <= u * (IZR L * (2 * IZR L + 3))) by (now apply Rmult_le_compat_l).
    assert (u * IZR L * 5 <= u * (IZR L * (2 * IZR L + 3))) by (rewrite Rmult_assoc; apply Rmult_le_compat_l; nra).
    assert (1 * eta <= IZR L * eta) by (now apply Rmult_le_compat_r). repeat split; lra.
  Qed.
  (** a colatitude *)
  Lemma theta_err k n x : (0 <= k)%Z -> (0 < n)%Z -> (k <= n)%Z -> x = IZR k * PI / IZR n ->
    Rabs (fdiv A (fmul A (IZR k) (fpi A)) (IZR n) - x) <= 13 * u /\ 0 <= x <= PI.
  Proof.
    intros Hk Hn Hkn ->. destruct small as (S1 & S2 & _). pose proof PI_4 as P4. pose proof PI2_3_2 as P3.
    assert (K0 : 0 <= IZR k) by (apply IZR_le; lia). assert (N1 : 1 <= IZR n) by (apply IZR_le; lia). assert (KN : IZR k <= IZR n) by (now apply IZR_le).
    set (a := IZR k) in *. set (b := IZR n) in *. set (r := a / b).
    assert (R1 : 0 <= r <= 1).
    { unfold r. split; [apply Rmult_le_pos; [lra|]; left; apply Rinv_0_lt_compat; lra|]. apply (Rmult_le_reg_r b); [lra|]. unfold Rdiv. rewrite Rmult_assoc, Rinv_l by lra. lra. }
    replace (a * PI / b) with (r * PI) by (unfold r; field; lra).
    assert (X : 0 <= r * PI <= PI) by nra. split; [|exact X].
    pose proof (rd_pi _ _ _ HA) as Q1. set (p := fpi A) in *. pose proof (rd_mul _ _ _ HA a p) as Q2. set (y := fmul A a p) in *.
    pose proof (rd_div _ _ _ HA y b ltac:(lra)) as Q3. set (z := fdiv A y b) in *.
    assert (B1 : Rabs p <= 4005 / 1000).
    { replace p with (PI + (p - PI)) by ring. eapply Rle_trans; [apply Rabs_triang|]. rewrite Rabs_right by lra. assert (u * PI <= / 1000 * 4) by (apply Rmult_le_compat; lra). lra. }
    assert (I0 : 0 < / b) by (apply Rinv_0_lt_compat; lra). assert (I1 : / b <= 1) by (rewrite <- Rinv_1; apply Rinv_le_contravar; lra).
    assert (B2 : Rabs (y / b - r * p) <= u * (4005 / 1000) + eta).
    { replace (y / b - r * p) with ((y - a * p) * / b) by (unfold r; field; lra). rewrite Rabs_mult, (Rabs_right (/ b)) by lra.
      eapply Rle_trans; [apply Rmult_le_compat_r; [lra|exact Q2]|]. rewrite Rmult_plus_distr_r.
      replace (u * Rabs (a * p) * / b) with (u * (r * Rabs p)) by (rewrite Rabs_mult, (Rabs_right a) by lra; unfold r; field; lra).
      assert (r * Rabs p <= 1 * (4005 / 1000)) by (apply Rmult_le_compat; try lra; apply Rabs_pos).
      assert (u * (r * Rabs p) <= u * (1 * (4005 / 1000))) by (now apply Rmult_le_compat_l).
      assert (eta * / b <= eta * 1) by (apply Rmult_le_compat_l; lra). lra. }
    assert (B3 : Rabs (r * p - r * PI) <= 4 * u + eta).
    { replace (r * p - r * PI) with (r * (p - PI)) by ring. rewrite Rabs_mult, (Rabs_right r) by lra.
      assert (r * Rabs (p - PI) <= 1 * (u * PI + eta)) by (apply Rmult_le_compat; try lra; apply Rabs_pos). assert (u * PI <= u * 4) by (apply Rmult_le_compat_l; lra). lra. }
    assert (B4 : Rabs (y / b) <= 41 / 10).
    { replace (y / b) with ((y / b - r * p) + (r * p - r * PI) + r * PI) by ring. eapply Rle_trans; [apply Rabs_triang|].
      rewrite (Rabs_right (r * PI)) by lra. pose proof (Rabs_triang (y / b - r * p) (r * p - r * PI)). lra. }
    assert (B5 : u * Rabs (y / b) <= u * (41 / 10)) by (now apply Rmult_le_compat_l).
    replace (z - r * PI) with ((z - y / b) + ((y / b - r * p) + (r * p - r * PI))) by ring. eapply Rle_trans; [apply Rabs_triang|].
    pose proof (Rabs_triang (y / b - r * p) (r * p - r * PI)). lra.
  Qed.

  Lemma equi_kernel s nodes gl : s = MW \/ s = MWSS \/ s = DH -> irfft_accurate (f_irfft F) L (kernel_nsamps (scheme_name s) (rings s L 0)) eps ->
    ipow_accurate (f_ipow F) (2 * L) eps ->
    exists ths K x, pf_thetas A (scheme_name s) L gl = Ok ths /\ vlen ths = rings s L 0 /\
      (forall t y, (0 <= t < rings s L 0)%Z -> colatitude nodes s L 0 t y -> Rabs (vat ths t - y) <= 13 * u /\ Rabs (x t - y) <= 13 * u) /\
      pf_kernel A F (scheme_name s) ths L spin = Ok K /\ kernel_near K (rings s L 0) L spin x kap.
  Proof.
    intros Hsch HF HI. destruct small as (S1 & S2 & S3 & S4 & L1 & S5). pose proof PI_4 as P4. pose proof PI2_3_2 as P3.
    set (n := kernel_nsamps (scheme_name s) (rings s L 0)) in *.
    assert (TH : exists ths, pf_thetas A (scheme_name s) L gl = Ok ths /\ vlen ths = rings s L 0 /\
      (forall t y, (0 <= t < rings s L 0)%Z -> colatitude nodes s L 0 t y -> Rabs (vat ths t - y) <= 13 * u) /\
      exists y0, 0 <= y0 <= PI /\ forall t y, (0 <= t < rings s L 0)%Z -> colatitude nodes s L 0 t y -> y = y0 + 2 * PI * IZR t / IZR n /\ (t = 0%Z -> Rabs (vat ths t - y) <= 13 * u)
        /\ colatitude nodes s L 0 0 y0).
    { assert (N0 : IZR L <> 0) by lra. assert (N1 : IZR (2 * L - 1) <> 0) by (apply not_0_IZR; lia).
      destruct Hsch as [->|[->| ->]]; unfold pf_thetas, n, kernel_nsamps; cbn [scheme_name rings];
        repeat match goal with |- context [streq ?a ?b] => let v := eval compute in (streq a b) in change (streq a b) with v end; cbv iota;
        (eexists; split; [reflexivity|]); (split; [reflexivity|]); cbn [vat colatitude is_colatitude].
      - split.
        + intros t y Ht ->. apply (theta_err (2 * t + 1) (2 * L - 1)); try lia. reflexivity.
        + exists (mw_theta L 0). split; [apply (theta_err 1 (2 * L - 1)); try lia; reflexivity|]. intros t y Ht ->. split; [|split; [|reflexivity]].
          * unfold mw_theta. change (2 * 0 + 1)%Z with 1%Z. rewrite plus_IZR, mult_IZR. field. exact N1.
          * intros ->. apply (theta_err 1 (2 * L - 1)); try lia. reflexivity.
      - assert (Q : forall t, mwss_theta L t = IZR (2 * t) * PI / IZR (2 * L)) by (intros t; unfold mwss_theta; rewrite !mult_IZR; field; exact N0).
        split.
        + intros t y Ht ->. apply (theta_err (2 * t) (2 * L)); try lia. apply Q.
        + exists (mwss_theta L 0). split; [apply (theta_err 0 (2 * L)); try lia; apply Q|]. intros t y Ht ->. split; [|split; [|reflexivity]].
          * unfold mwss_theta. replace (2 * (L + 1) - 2)%Z with (2 * L)%Z by lia. rewrite mult_IZR. field. exact N0.
          * intros ->. apply (theta_err 0 (2 * L)); try lia. apply Q.
      - split.
        + intros t y Ht ->. apply (theta_err (2 * t + 1) (4 * L)); try lia. reflexivity.
        + exists (dh_theta L 0). split; [apply (theta_err 1 (4 * L)); try lia; reflexivity|]. intros t y Ht ->. split; [|split; [|reflexivity]].
          * unfold dh_theta. change (2 * 0 + 1)%Z with 1%Z. rewrite plus_IZR, !mult_IZR. field. exact N0.
          * intros ->. apply (theta_err 1 (4 * L)); try lia. reflexivity. }
    destruct TH as (ths & E1 & E2 & E3 & y0 & Y0 & E4).
    assert (RN : (0 < rings s L 0 <= n)%Z).
    { unfold n, kernel_nsamps. destruct Hsch as [->|[->| ->]]; cbn [scheme_name rings];
        repeat match goal with |- context [streq ?a ?b] => let v := eval compute in (streq a b) in change (streq a b) with v end; cbv iota; lia. }
    assert (EC : colatitude nodes s L 0 0 y0 /\ Rabs (vat ths 0 - y0) <= 13 * u).
    { assert (C : exists y, colatitude nodes s L 0 0 y) by (destruct Hsch as [->|[->| ->]]; cbn [colatitude is_colatitude]; eauto).
      destruct C as (y & C). destruct (E4 0%Z y ltac:(lia) C) as (Q1 & Q2 & Q3). split; [exact Q3|]. apply E3; [lia|exact Q3]. }
    destruct EC as [EC1 EC2].
    assert (B0 : Rabs (vat ths 0) <= 41 / 10).
    { replace (vat ths 0) with (y0 + (vat ths 0 - y0)) by ring. eapply Rle_trans; [apply Rabs_triang|]. rewrite Rabs_right by lra. lra. }
    destruct (fourier_near A u eta HA HZ S1 S2 F L n eps HL ltac:(lia) S3 S4 Heps HF HI (scheme_name s) ths (rings s L 0) spin eq_refl E2 RN Hs B0) as (dl & E5 & H5).
    destruct (normalise_near A u eta HA S1 S2 HZ dl (rings s L 0) L spin _ _ kap H5 HL) as (K & E6 & H6).
    { intros l Hl. unfold kbound, kap. rewrite mult_IZR, plus_IZR, mult_IZR.
      assert (5 <= IZR L * (2 * IZR L + 3)) by nra. assert (u * 5 <= u * (IZR L * (2 * IZR L + 3))) by (now apply Rmult_le_compat_l). lra. }
    exists ths, K, (fun t => vat ths 0 + 2 * PI * IZR t / IZR n). split; [exact E1|]. split; [exact E2|]. split; [|split; [|exact H6]].
    - intros t y Ht C. split; [now apply E3|]. destruct (E4 t y Ht C) as (-> & _).
      replace (vat ths 0 + 2 * PI * IZR t / IZR n - (y0 + 2 * PI * IZR t / IZR n)) with (vat ths 0 - y0) by ring. exact EC2.
    - unfold pf_kernel. destruct Hsch as [->|[->| ->]]; cbn [scheme_name] in *;
        repeat match goal with |- context [streq ?a ?b] => let v := eval compute in (streq a b) in change (streq a b) with v end;
        repeat match goal with |- context [str_in ?a ?b] => let v := eval compute in (str_in a b) in change (str_in a b) with v end; cbv iota;
        rewrite E5; cbn [bind]; exact E6.
  Qed.

  Lemma gl_kernel nodes gl delta : vlen gl = L -> (forall t, (0 <= t < L)%Z -> Rabs (vat gl t) <= 5) ->
    (forall t y, (0 <= t < L)%Z -> colatitude nodes GL L 0 t y -> Rabs (vat gl t - y) <= delta) ->
    exists K, pf_kernel A F "gl" gl L spin = Ok K /\ kernel_near K L L spin (vat gl) kap.
  Proof.
    intros E1 E2 E3. destruct small as (S1 & S2 & S3 & S4 & L1 & S5).
    destruct (direct_near A u eta HA gl L L spin HL E1 ltac:(lia) Hs ltac:(lra) S4 E2) as (dl & E5 & H5).
    destruct (normalise_near A u eta HA S1 S2 HZ dl L L spin _ _ kap H5 HL) as (K & E6 & H6).
    { intros l Hl. assert (FL : 0 <= fbound u l <= fbound u L).
      { unfold fbound. split; [apply Rmult_le_pos; [lra|]; apply IZR_le; nia|]. apply Rmult_le_compat_l; [lra|]. apply IZR_le. nia. }
      split; [lra|]. unfold kap. unfold fbound in FL at 3. rewrite mult_IZR, plus_IZR, mult_IZR in FL.
      assert (5 <= IZR L * (2 * IZR L + 3)) by nra. assert (u * 5 <= u * (IZR L * (2 * IZR L + 3))) by (now apply Rmult_le_compat_l). lra. }
    exists K. split; [|exact H6]. unfold pf_kernel.
    match goal with |- context [streq ?a ?b] => let v := eval compute in (streq a b) in change (streq a b) with v end. cbv iota.
    rewrite E5. cbn [bind]. exact E6.
  Qed.

  Lemma inverse_top s nodes o flm K x delta : s <> HEALPIX -> shape flm = [L; 2 * L - 1]%Z -> sums_all o L -> 0 <= delta ->
    ifft_accurate (f_ifft F) (per_ring s L) eps -> kernel_near K (rings s L 0) L spin x kap ->
    (forall t y, (0 <= t < rings s L 0)%Z -> colatitude nodes s L 0 t y -> Rabs (x t - y) <= delta) ->
    exists f, pf_inverse A F o flm K L (scheme_name s) spin = Ok f /\ shape f = [rings s L 0; per_ring s L]%Z /\
      forall t p y, (0 <= t < rings s L 0)%Z -> (0 <= p < per_ring s L)%Z -> colatitude nodes s L 0 t y ->
        Cmod (get f [t; p] - synth L spin (stored L flm) y (longitude s L 0 t p))%C <=
        (2120 * u * (IZR L * (2 * IZR L + 3)) + 20 * eps + IZR L * delta) * signal_size L spin (stored L flm) + 51 * (IZR L * IZR L) * eta.
  Proof.
    intros Hh Hf Ho Hd HF HK Hx. destruct small as (S1 & S2 & S3 & S4 & L1 & S5).
    assert (KP : 0 <= kap <= 2).
    { unfold kap. assert (0 <= u * (IZR L * (2 * IZR L + 3))) by (apply Rmult_le_pos; [lra|]; nra). lra. }
    destruct (inverse_near A u eta HA HZ S1 s F o flm K L spin x kap eps Hh HL ltac:(lia) Hf Ho KP ltac:(lra) ltac:(lra) HF HK) as (f & E & Sh & H).
    exists f. split; [exact E|]. split; [exact Sh|]. intros t p y Ht Hp C. specialize (H t p Ht Hp). specialize (Hx t y Ht C).
    set (c := stored L flm) in *. set (ph := longitude s L 0 t p) in *. pose proof (synth_lip L spin c (x t) y ph HL ltac:(lia)) as W.
    pose proof (signal_size_nonneg L spin c) as SN. set (SS := signal_size L spin c) in *.
    replace (get f [t; p] - synth L spin c y ph)%C with ((get f [t; p] - synth L spin c (x t) ph) + (synth L spin c (x t) ph - synth L spin c y ph))%C by ring.
    eapply Rle_trans; [apply Cmod_triangle|].
    assert (W2 : IZR L * Rabs (x t - y) * SS <= IZR L * delta * SS) by (apply Rmult_le_compat_r; [lra|]; apply Rmult_le_compat_l; lra).
    set (X := u * (IZR L * (2 * IZR L + 3))) in *. assert (X1 : u * IZR L * 5 <= X) by (unfold X; rewrite Rmult_assoc; apply Rmult_le_compat_l; nra).
    assert (X0 : 0 <= u * IZR L) by (apply Rmult_le_pos; lra).
    assert (G : eps + (1 + eps) * (2 * (kap + 27 * u * IZR L)) <= 2120 * X + 20 * eps).
    { replace kap with (1000 * X + 9 * eps) by (unfold kap, X; ring).
      assert (Q : (1 + eps) * (2 * (1000 * X + 9 * eps + 27 * u * IZR L)) <= (21 / 20) * (2 * (1000 * X + 9 * eps + 27 * u * IZR L))) by (apply Rmult_le_compat_r; lra). lra. }
    apply (Rmult_le_compat_r SS) in G; [|lra].
    assert (E2 : 0 <= IZR L * IZR L * eta) by (apply Rmult_le_pos; [|lra]; nra).
    assert (Q : (1 + eps) * (48 * (IZR L * IZR L) * eta) <= (21 / 20) * (48 * (IZR L * IZR L) * eta)) by (apply Rmult_le_compat_r; lra).
    replace (2120 * u * (IZR L * (2 * IZR L + 3))) with (2120 * X) by (unfold X; ring). lra.
  Qed.
End Float.

(** ** Arithmetic and transforms that meet the assumptions *)
Lemma exact_zeros : zeros_exact exact_arith.
Proof. split; [intros x; cbn [fmul exact_arith]; split; ring|cbn [fadd exact_arith]; ring]. Qed.
Lemma ieee_zeros emin prec : zeros_exact (ieee emin prec).
Proof.
  assert (R0 : rnd emin prec 0 = 0) by (apply Generic_fmt.round_0, Generic_fmt.valid_rnd_N).
  split; [intros x; cbn [fmul ieee]; now rewrite Rmult_0_l, Rmult_0_r, R0|cbn [fadd ieee]; now rewrite Rplus_0_l, R0].
Qed.
Lemma in_turn_from_terms o l : terms (in_turn_from o l) = (terms o ++ l)%list.
Proof.
  revert o. induction l as [|i l IH]; intros o; cbn [in_turn_from]; [now rewrite List.app_nil_r|].
  rewrite IH. cbn [terms]. now rewrite <- List.app_assoc.
Qed.
Lemma in_turn_all n : (1 <= n)%Z -> sums_all (in_turn n) n.
Proof.
  intros Hn. unfold sums_all, in_turn. rewrite in_turn_from_terms. cbn [terms]. rewrite (zrange_cons 0 n) by lia. apply Permutation.Permutation_refl.
Qed.
Lemma exact_ifft n eps : 0 <= eps -> (0 < n)%Z -> ifft_accurate (f_ifft exact_ffts) n eps.
Proof.
  intros He Hn v Hv. cbn [f_ifft exact_ffts]. unfold ifft_fwd. cbn [vlen vat]. split; [exact Hv|]. intros p Hp. rewrite Hv.
  match goal with |- Cmod ?z <= _ => replace z with (RtoC 0) end.
  - rewrite Cmod_0. apply Rmult_le_pos; [exact He|]. apply rs_nonneg. intros. apply Cmod_ge_0.
  - symmetry. match goal with |- (?a - ?b)%C = _ => replace a with b; [ring|] end. apply cr_ext. intros k Hk. unfold root. rewrite mult_IZR. do 2 f_equal. unfold Rdiv. ring.
Qed.
Lemma exact_irfft L n eps : 0 <= eps -> irfft_accurate (f_irfft exact_ffts) L n eps.
Proof.
  intros He v Hv p Hp. cbn [f_irfft exact_ffts vat]. rewrite Hv. unfold Rminus. rewrite Rplus_opp_r, Rabs_R0.
  apply Rmult_le_pos; [exact He|]. pose proof (Cmod_ge_0 (vat v 0)).
  assert (0 <= rsum (zrange 1 L) (fun k => Cmod (vat v k))) by (apply rs_nonneg; intros; apply Cmod_ge_0). lra.
Qed.
Lemma exact_ipow b eps : 0 <= eps -> ipow_accurate (f_ipow exact_ffts) b eps.
Proof. intros He k Hk. cbn [f_ipow exact_ffts]. replace (_ - _)%C with (RtoC 0) by ring. now rewrite Cmod_0. Qed.
