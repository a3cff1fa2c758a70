(** Consequences for the on-the-fly forward Wigner transforms: quadrature sums, limits, agreement, reality, round trips. *)
From Coq Require Import Reals ZifyBool Lra.
From Coquelicot Require Import Complex.
From Verif Require Import Lib.Py Lib.PyFacts Lib.Vec Lib.VecFacts Lib.Sums Lib.Cplx Lib.Arr Lib.ArrFacts Lib.MatFacts Lib.Ext Lib.ExtFacts Lib.Lim
  Model.Index Model.Samples Model.Grids Model.FFT Model.HealpixFFT Model.Turok Model.Resampling Model.Quadrature Model.Spherical
  Model.Precompute Model.PriceMcEwen Model.OTF Model.OTFSpherical Model.Wigner Model.OTFWigner
  Spec.SamplesSpec Spec.WignerSpec Spec.SphereSpec Spec.GridSpec Spec.HealpixFFTSpec Spec.SphericalSpec Spec.QuadSpec Spec.SO3Spec Spec.OTFSpec Spec.OTFSphericalSpec Spec.OTFWignerSpec
  Proofs.SamplesProofs Proofs.GridProofs Proofs.PixelProofs Proofs.TurokProofs Proofs.HealpixDFTProofs Proofs.SphGrid
  Proofs.WignerCalc Proofs.SphereTheory Proofs.SphInverse Proofs.SphTop Proofs.SphForward Proofs.SphForwardTop Proofs.SphRound Proofs.SphFacts
  Proofs.WignerInverse Proofs.WignerForward Proofs.WignerRound Proofs.WignerReal Proofs.PMPre Proofs.OTFProofs Proofs.OTFTop Proofs.OTFRegular Proofs.OTFLimit Proofs.OTFSphInverse Proofs.PrecomputeSph Proofs.OTFSphForward
  Proofs.OTFSphNear Proofs.OTFSphTop Proofs.OTFWignerLoop Proofs.OTFWignerInverse Proofs.OTFWignerInvTop Proofs.OTFWignerForward
  Spec.CallSpec.
From Coq Require Import List.
Import ListNotations.
Open Scope string_scope.
Open Scope Z_scope.

(** ** Limits *)
Section Limits.
  Context {T : Type} (P : R -> T -> Prop).
  Hypothesis mono : forall d d' u, (0 < d' <= d)%R -> P d' u -> P d u.
  Lemma lim_conj f z : lim P f z -> lim P (fun u => Cconj (f u)) (Cconj z).
  Proof.
    intros H eps He. destruct (H eps He) as (d & Hd & Hu). exists d. split; [exact Hd|]. intros u Hp.
    replace (Cconj (f u) - Cconj z)%C with (Cconj (f u - z)%C) by (apply C_eq; cbn; ring).
    replace (Cmod (Cconj (f u - z)%C)) with (Cmod (f u - z)%C); [now apply Hu|]. unfold Cmod, Cconj. cbn [fst snd]. f_equal. ring.
  Qed.
  (** entries that tend to those of f0 *)
  Lemma lim_linear_entries sh phi (lin : forall x y f g h, shape h = sh -> combination x y f g h -> phi h = (x * phi f + y * phi g)%C) (f : T -> ndarray C) f0 :
    shape f0 = sh -> (forall u, shape (f u) = sh) -> (forall ix, in_shape sh ix -> lim P (fun u => get (f u) ix) (get f0 ix)) -> lim P (fun u => phi (f u)) (phi f0).
  Proof.
    intros S0 S1 H eps He. destruct (lim_linear sh phi lin (fun d (a : ndarray C) => arrays_near d a f0) (fun a => a) f0 S0 ltac:(auto) eps He) as (e & D & HB).
    destruct (lim_all P mono (all_ix sh) (fun ix u => get (f u) ix) (fun ix => get f0 ix)) with (eps := e) as (d & Dd & Hd); auto.
    { intros ix Hi. apply H. now apply all_ix_in. }
    exists d. split; [exact Dd|]. intros u Hu. apply HB. split; [now rewrite S0, S1|]. intros ix Hix. apply Hd; [exact Hu|]. apply in_all_ix. now rewrite <- (S1 u).
  Qed.
End Limits.

(** ** The components *)
Definition T3 (gl : gl_rule) (s : scheme) (L N nside Lo : Z) (f : ndarray C) (w : vec R) (re : bool) (n el m : Z) : C :=
  (RtoC (sgn n) * coeffs gl s L nside (- n) Lo w (uvals (re && (n =? 0)) s L nside (- n) (compA s L N nside f n)) el m)%C.

Lemma seen_shape reality f : shape (seen reality f) = shape f.
Proof. unfold seen. destruct reality; reflexivity. Qed.

Lemma wigner_forward_near gl f0 L N s nside reality Lo w eps : 2 <= L -> (s = HEALPIX -> 1 <= nside) -> nodes_ok s L (gl_nodes gl L) ->
  quad_weights_transform gl L (scheme_name (fscheme s)) 0 (Some nside) = Ok w -> (0 < eps)%R ->
  exists delta, (0 < delta)%R /\ forall th o beta method p f, wigner_forward_call gl th f L N s nside o reality Lo beta method p ->
    arrays_near delta f f0 -> forward_angles_near delta (vat (gl_nodes gl L)) s L nside beta ->
    exists flmn, otf_wigner_forward gl th f L N o (scheme_name s) method reality p Lo = Ok flmn /\
      coefficients3_near eps L N flmn (fun n el m => out3 reality (T3 gl s L N nside Lo (seen reality f0) w (streq method "numpy" && reality)) n el m * RtoC (norm3 el))%C.
Proof.
  intros HL Hn Hg Ew He.
  set (P := fun d (u : vec R * ndarray C) => angles_near d (vat (gl_nodes gl (forward_band s L))) (forward_scheme s) (forward_band s L) nside (fst u) /\
    shape (snd u) = 2 * N - 1 :: map_shape s L nside /\ arrays_near d (snd u) f0).
  assert (mono : forall d d' u, (0 < d' <= d)%R -> P d' u -> P d u).
  { intros d d' u Hd [H1 [H2 [H3 H4]]]. split; [eapply angles_mono; eauto|]. split; [exact H2|]. split; [exact H3|]. intros ix Hix. specialize (H4 ix Hix). lra. }
  set (nr := rings (forward_scheme s) (forward_band s L) nside).
  set (gg := fun beta : vec R => ogrid s L nside (ring_angle (forward_scheme s) nr (vat beta))).
  assert (LX : forall re n el m, lim P (fun u => X3o (gg (fst u)) s L N nside Lo (seen reality (snd u)) w re n el m) (T3 gl s L N nside Lo (seen reality f0) w re n el m)).
  { intros re n el m. unfold X3o, T3, coeffs. rewrite Z.abs_opp. apply lim_mult; [exact mono|apply lim_const|]. destruct (_ <=? el); [|apply lim_const].
    apply lim_fsum; [exact mono| | | | |].
    - intros u. apply ogrid_n.
    - intros u t. apply ogrid_N.
    - intros u t p. apply ogrid_ph.
    - intros t Ht. rewrite fwd_gth. intros d u Hd [H1 _]. unfold gg. rewrite ogrid_th. rewrite fwd_rings in Ht.
      apply (ring_angle_close gl (forward_scheme s) (forward_band s L) nside); auto.
      + destruct s; cbn [forward_band]; lia.
      + intros Q. apply Hn. destruct s; try discriminate; reflexivity.
      + now apply nodes_fwd.
    - intros t p IG.
      assert (LV : lim P (fun u => fvals s L nside (- n) (compA s L N nside (seen reality (snd u)) n) t p) (fvals s L nside (- n) (compA s L N nside (seen reality f0) n) t p)).
      { apply (lim_linear_entries P mono (map_shape s L nside) (fun f => fvals s L nside (- n) f t p)); try reflexivity.
        - intros x y f1 f2 h Hh Hc. apply (fvals_lin gl); auto. lia.
        - intros ix Hix. cbn [compA get]. unfold comp. apply lim_mult; [exact mono|apply lim_const|]. apply lim_sum; [exact mono|].
          intros g Hgr. apply in_zrange in Hgr. apply lim_mult; [exact mono| |apply lim_const].
          assert (LG : lim P (fun u => get (snd u) (g :: ix)) (get f0 (g :: ix))).
          { intros e Hee. exists e. split; [exact Hee|]. intros u (_ & H2 & _ & H3). apply H3. rewrite H2. split; [lia|exact Hix]. }
          unfold seen. destruct reality; cbn [amap get]; [apply lim_re|]; exact LG. }
      unfold uvals. destruct (re && _); [apply lim_re|]; exact LV. }
  destruct (lim_all P mono (list_prod [false; true] (list_prod (zrange (- N + 1) N) (list_prod (zrange 0 L) (zrange (- L + 1) L))))
    (fun i u => out3 reality (X3o (gg (fst u)) s L N nside Lo (seen reality (snd u)) w (fst i)) (fst (snd i)) (fst (snd (snd i))) (snd (snd (snd i))) * RtoC (norm3 (fst (snd (snd i)))))%C
    (fun i => out3 reality (T3 gl s L N nside Lo (seen reality f0) w (fst i)) (fst (snd i)) (fst (snd (snd i))) (snd (snd (snd i))) * RtoC (norm3 (fst (snd (snd i)))))%C) with (eps := eps) as (delta & D & H); auto.
  { intros i _. apply lim_mult; [exact mono| |apply lim_const]. unfold out3. destruct (_ && _); [|apply LX].
    apply lim_mult; [exact mono|apply lim_const|]. apply lim_conj. apply LX. }
  exists delta. split; [exact D|]. intros th o beta method p f HC Hf Ha.
  destruct (wigner_forward_call_ok _ _ _ _ _ _ _ _ _ _ _ _ _ HC) as (w' & flmn & Ew' & E & S1 & H1).
  exists flmn. split; [exact E|]. split; [exact S1|]. intros n el m Hk Hel Hm. rewrite H1 by auto.
  destruct HC as (_ & _ & _ & _ & Hns & _ & Sf & _ & _ & Hb & _).
  assert (EW : w' = w).
  { assert (S : setting (scheme_name s) s L nside o) by (split; [apply denotes_name|]; split; [lia|]; intros Q; destruct (Hns Q) as (? & ? & ?); auto).
    assert (S' : setting (scheme_name s) s L nside (Some nside)) by (split; [apply denotes_name|]; split; [lia|]; intros Q; auto).
    pose proof (fname_same gl (scheme_name s) (scheme_name s) s L nside o (Some nside) S S') as Q.
    replace (fname (scheme_name s) s) with (scheme_name (fscheme s)) in Q by (destruct s; reflexivity). rewrite Ew, Ew' in Q. now injection Q. }
  rewrite EW, Hb.
  assert (PP : P delta (beta, f)) by (split; [apply fwd_near_nodes; exact Ha|]; split; [exact Sf|exact Hf]).
  apply (H (beta, f) PP (streq method "numpy" && reality, (n, (el, m)))).
  apply in_prod; [destruct (_ && _); cbn; auto|]. apply in_prod; [apply in_zrange; lia|]. apply in_prod; apply in_zrange; lia.
Qed.

(** ** Components of real signals *)
Lemma real_map_seen nodes s L N nside f : so3_real_map nodes s L N nside f -> so3_real_map nodes s L N nside (seen true f).
Proof.
  intros H. destruct s; cbn [so3_real_map] in *; try (intros ix Hix; reflexivity);
  (destruct H as (F & (S1 & HF) & HB & HR); exists F; split; [split; [exact S1|]|auto]; intros g t p x Hg Ht Hp Hx; cbn [seen amap get];
   rewrite (HF g t p x) by auto; apply real_Re, HR).
Qed.

Lemma real_samples_gen gl s L N nside f : 1 <= L -> (s = HEALPIX -> 1 <= nside) -> nodes_ok s L (gl_nodes gl L) -> shape f = 2 * N - 1 :: map_shape s L nside ->
  so3_real_map (vat (gl_nodes gl L)) s L N nside f -> forall ix, in_shape (shape f) ix -> is_real (get f ix).
Proof.
  intros HL Hn Hg Sf HR ix Hix.
  assert (M : (exists F, so3_holds (vat (gl_nodes gl L)) s L N nside f F /\ so3_band_limited L N F /\ forall a b g, is_real (F a b g)) -> is_real (get f ix)).
  { intros (F & (_ & HF) & _ & HFr). rewrite Sf in Hix. destruct (so3_cover' s L N nside ix HL Hn Hix) as (g & t & p & -> & Hgg & Ht & Hp).
    rewrite (HF g t p (th_of gl s L nside t)); auto. now apply placed. }
  destruct s; (apply M; exact HR) || (apply HR; exact Hix).
Qed.

Lemma sample_in (gl : gl_rule) s L nside ix : 1 <= L -> (s = HEALPIX -> 1 <= nside) -> sample_ix s L nside ix -> in_shape (map_shape s L nside) ix.
Proof.
  intros HL Hn (t & p & Ht & Hp & ->).
  rewrite <- (the_grid_sh gl s L nside), <- (the_grid_e gl s L nside). eapply go_sh.
  - apply (the_grid_ok gl (scheme_name s) s L nside (Some nside) (mkVec (rings s L nside) (th_of gl s L nside))); auto; now destruct s.
  - split; destruct s; auto.
Qed.

Lemma comp_conj_gen gl s L N nside f : 1 <= L -> 1 <= N -> (s = HEALPIX -> 1 <= nside) -> nodes_ok s L (gl_nodes gl L) -> shape f = 2 * N - 1 :: map_shape s L nside ->
  so3_real_map (vat (gl_nodes gl L)) s L N nside f ->
  forall n t p, - N < n < N -> in_grid (fgrid gl s L nside) t p ->
    fvals s L nside n (compA s L N nside f (- n)%Z) t p = Cconj (fvals s L nside (- n) (compA s L N nside f n) t p).
Proof.
  intros HL HN Hn1 Hg Hf HR n t p Hn IG.
  assert (M : s = MW \/ s = MWSS -> fvals s L nside n (compA s L N nside f (- n)%Z) t p = Cconj (fvals s L nside (- n) (compA s L N nside f n) t p)).
  { intros Q. assert (H' : exists F, so3_holds (vat (gl_nodes gl L)) s L N nside f F /\ so3_band_limited L N F /\ forall a b g, is_real (F a b g))
      by (destruct Q as [-> | ->]; exact HR). destruct H' as (F & (_ & HF) & (Fn & HB & HE) & HFr).
    assert (RP : forall k, - N < k < N -> represented (vat (gl_nodes gl L)) s L nside (- k) (compA s L N nside f k) (fun th ph => RtoC (2 * PI) * Fn k th ph)%C).
    { intros k Hk. split; [|intros _; apply band_limited_opp, band_limited_scal, HB; auto]. split; [reflexivity|]. intros t' p' x Ht' Hp' Hx. cbn [compA get].
      apply (comp_fourier N f k _ (fun k => Fn k x (longitude s L nside t' p'))); auto. intros g Hgg. rewrite (HF g t' p' x) by auto. rewrite HE.
      apply cr_ext. intros j Hj. now rewrite gamma_root. }
    assert (CJ : forall th ph, Fn (- n)%Z th ph = Cconj (Fn n th ph)).
    { intros th ph.
      assert (FV : forall k, - N < k < N -> comp N (mkArr [2 * N - 1] (fun ix => F ph th (2 * PI * IZR (hd 0%Z ix) / IZR (2 * N - 1)))%R) k [] = (RtoC (2 * PI) * Fn k th ph)%C).
      { intros k Hk. apply (comp_fourier N _ k [] (fun k => Fn k th ph)); auto. intros g Hgg. cbn [get hd]. rewrite HE. apply cr_ext. intros j Hj. now rewrite gamma_root. }
      pose proof (FV n ltac:(lia)) as E1. pose proof (FV (- n) ltac:(lia)) as E2. rewrite comp_real in E2 by (intros; apply HFr).
      rewrite E1, Cconj_mult, Cconj_R in E2. assert (P := PI_RGT_0).
      transitivity (RtoC (/ (2 * PI)) * (RtoC (2 * PI) * Fn (- n)%Z th ph))%C.
      - rewrite Cmult_assoc, <- RtoC_mult, Rinv_l by lra. ring.
      - rewrite <- E2, Cmult_assoc, <- RtoC_mult, Rinv_l by lra. ring. }
    assert (NP : s <> MW -> s <> MWSS -> forall t, 0 <= t < rings s L nside -> colatitude (vat (gl_nodes gl L)) s L nside t (th_of gl s L nside t)) by (destruct Q; congruence).
    rewrite (fvals_signal_gen gl s L nside (- n) (compA s L N nside f n) _ t p HL Hn1 NP (RP n Hn) IG).
    pose proof (RP (- n) ltac:(lia)) as RPn. rewrite Z.opp_involutive in RPn.
    rewrite (fvals_signal_gen gl s L nside n (compA s L N nside f (- n)%Z) _ t p HL Hn1 NP RPn IG). rewrite CJ, Cconj_mult, Cconj_R. reflexivity. }
  assert (M2 : s <> MW -> s <> MWSS -> fvals s L nside n (compA s L N nside f (- n)%Z) t p = Cconj (fvals s L nside (- n) (compA s L N nside f n) t p)).
  { intros N1 N2. assert (E : forall sp g, fvals s L nside sp g t p = get g (sample_index s nside t p)) by (intros; destruct s; try congruence; reflexivity).
    rewrite !E. cbn [compA get]. apply comp_real. intros g Hgg. apply (real_samples_gen gl s L N nside f); auto. rewrite Hf. split; [exact Hgg|].
    apply (sample_in gl); auto. exists t, p. destruct IG as (I1 & I2).
    assert (GE : fgrid gl s L nside = the_grid gl s L nside) by (destruct s; try congruence; reflexivity). rewrite GE in *. destruct s; auto. }
  destruct s; (apply M; auto; fail) || (apply M2; discriminate).
Qed.

(** ** Hermitian coefficients *)
Section Conj.
  Variables (gl : gl_rule) (s : scheme) (L N nside Lo : Z) (x : Z -> R) (f : ndarray C) (w : vec R).
  Notation g := (ogrid s L nside x).
  Hypothesis HC : forall n t p, - N < n < N -> in_grid (fgrid gl s L nside) t p ->
    fvals s L nside n (compA s L N nside f (- n)%Z) t p = Cconj (fvals s L nside (- n) (compA s L N nside f n) t p).
  Lemma X3o_conj n el m : - N < n < N -> X3o g s L N nside Lo f w false (- n) el (- m) = (RtoC (sgn (m + n)) * Cconj (X3o g s L N nside Lo f w false n el m))%C.
  Proof using HC.
    intros Hn. unfold X3o. cbn [andb]. rewrite Z.abs_opp, sgn_opp, Cconj_mult, Cconj_R. destruct (_ <=? el); [|rewrite Cconj_R; ring].
    rewrite Z.opp_involutive. unfold uvals.
    rewrite (fsum_conj_spin _ _ (fun t p => fvals s L nside (- n) (compA s L N nside f n) t p)); [ring|]. intros t p IG. apply HC; [exact Hn|]. now apply (ogrid_in gl) in IG.
  Qed.
  Lemma X3o_out reality n el m : - N < n < N -> out3 reality (X3o g s L N nside Lo f w false) n el m = X3o g s L N nside Lo f w false n el m.
  Proof using HC.
    intros Hn. unfold out3. destruct (_ && _); [|reflexivity].
    rewrite X3o_conj by lia. rewrite Cconj_mult, Cconj_R, Cconj_conj, Cmult_assoc, <- RtoC_mult, sgn_sq. ring.
  Qed.
  Lemma comp0_fvals t p : 1 <= N -> in_grid (fgrid gl s L nside) t p -> is_real (fvals s L nside 0 (compA s L N nside f 0) t p).
  Proof using HC.
    intros HN IG. pose proof (HC 0 t p ltac:(lia) IG) as Q. change (- 0) with 0 in Q.
    destruct (fvals s L nside 0 (compA s L N nside f 0) t p) as [a b]. unfold is_real, Im, Cconj in *. cbn in *. injection Q. lra.
  Qed.
  Lemma X3o_flag re n el m : 1 <= N -> X3o g s L N nside Lo f w re n el m = X3o g s L N nside Lo f w false n el m.
  Proof using HC.
    intros HN. unfold X3o. f_equal. destruct (_ <=? el); [|reflexivity]. apply fsum_ext. intros t p IG. apply (ogrid_in gl) in IG. unfold uvals.
    destruct (re && (n =? 0)) eqn:Q; [|reflexivity]. apply andb_prop in Q. destruct Q as [_ Q]. assert (n = 0) by lia. subst n. change (- 0) with 0. cbn [andb].
    apply real_Re. now apply comp0_fvals.
  Qed.
End Conj.

Lemma out3_ext reality (X Y : Z -> Z -> Z -> C) n el m : X n el m = Y n el m -> X (- n)%Z el (- m)%Z = Y (- n)%Z el (- m)%Z -> out3 reality X n el m = out3 reality Y n el m.
Proof. intros E1 E2. unfold out3. now rewrite E1, E2. Qed.

Lemma seen_comp (gl : gl_rule) s L N nside f n : 1 <= L -> (s = HEALPIX -> 1 <= nside) -> shape f = 2 * N - 1 :: map_shape s L nside ->
  (forall ix, in_shape (shape f) ix -> is_real (get f ix)) -> forall ix, sample_ix s L nside ix ->
  get (compA s L N nside (seen true f) n) ix = get (compA s L N nside f n) ix.
Proof.
  intros HL Hn Sf HR ix Hix. cbn [compA get]. unfold comp. f_equal. apply cr_ext. intros g Hg. f_equal. unfold seen. cbn [amap get]. apply real_Re.
  apply HR. rewrite Sf. split; [lia|]. now apply (sample_in gl).
Qed.

(** what is computed for the samples of a real signal, with the flag or without *)
Lemma forward_real_call gl th f L N s nside o reality Lo beta method p : wigner_forward_call gl th f L N s nside o reality Lo beta method p ->
  nodes_ok s L (gl_nodes gl L) -> (reality = true -> so3_real_map (vat (gl_nodes gl L)) s L N nside f) ->
  exists w flmn, quad_weights_transform gl L (scheme_name (fscheme s)) 0 o = Ok w /\
    otf_wigner_forward gl th f L N o (scheme_name s) method reality p Lo = Ok flmn /\
    holds_coefficients3 L N flmn (fun n el m => X3o (ogrid s L nside (ring_angle (forward_scheme s) (vlen beta) (vat beta))) s L N nside Lo f w false n el m * RtoC (norm3 el))%C.
Proof.
  intros HC Hg HR. destruct (wigner_forward_call_ok _ _ _ _ _ _ _ _ _ _ _ _ _ HC) as (w & flmn & Ew & E & S1 & H1).
  destruct HC as (HL & _ & HN & _ & Hns & _ & Sf & _). pose proof (hp_of_call _ _ _ _ Hns) as Hn.
  exists w, flmn. split; [exact Ew|]. split; [exact E|]. split; [exact S1|]. intros n el m Hk Hel Hm. rewrite H1 by auto. f_equal.
  destruct reality; [|now rewrite andb_false_r].
  specialize (HR eq_refl).
  assert (CC := comp_conj_gen gl s L N nside (seen true f) ltac:(lia) ltac:(lia) Hn Hg Sf (real_map_seen _ _ _ _ _ _ HR)).
  rewrite (out3_ext true _ (X3o (ogrid s L nside (ring_angle (forward_scheme s) (vlen beta) (vat beta))) s L N nside Lo (seen true f) w false)) by (apply (X3o_flag gl); auto; lia).
  rewrite (X3o_out gl) by auto. unfold X3o. f_equal. destruct (_ <=? el); [|reflexivity]. apply fsum_ext. intros t q IG. apply (ogrid_in gl) in IG. cbn [andb]. unfold uvals.
  apply (fvals_ext gl); auto; [lia|]. intros ix Hix. apply (seen_comp gl); auto; [lia|]. apply (real_samples_gen gl s L N nside f); auto. lia.
Qed.

Lemma wigner_forward_same gl th f L N s nside o reality reality' Lo beta method method' p p' :
  wigner_forward_call gl th f L N s nside o reality Lo beta method p -> wigner_forward_call gl th f L N s nside o reality' Lo beta method' p' ->
  nodes_ok s L (gl_nodes gl L) -> (reality || reality' = true -> so3_real_map (vat (gl_nodes gl L)) s L N nside f) ->
  same_ok (otf_wigner_forward gl th f L N o (scheme_name s) method reality p Lo) (otf_wigner_forward gl th f L N o (scheme_name s) method' reality' p' Lo).
Proof.
  intros C1 C2 Hg HR. destruct (forward_real_call _ _ _ _ _ _ _ _ _ _ _ _ _ C1 Hg) as (w & a & Ew & E & Ha); [intros ->; now apply HR|].
  destruct (forward_real_call _ _ _ _ _ _ _ _ _ _ _ _ _ C2 Hg) as (w' & b & Ew' & E' & Hb); [intros ->; apply HR; apply orb_true_r|].
  rewrite Ew in Ew'. injection Ew' as <-. exists a, b. split; [exact E|]. split; [exact E'|]. eapply holds_same3; eauto.
Qed.
Lemma wigner_forward_hermitian gl th f L N s nside o reality Lo beta method p flmn : wigner_forward_call gl th f L N s nside o reality Lo beta method p ->
  nodes_ok s L (gl_nodes gl L) -> so3_real_map (vat (gl_nodes gl L)) s L N nside f ->
  otf_wigner_forward gl th f L N o (scheme_name s) method reality p Lo = Ok flmn -> hermitian3 L N (stored3 L N flmn).
Proof.
  intros C1 Hg HR E. destruct (forward_real_call _ _ _ _ _ _ _ _ _ _ _ _ _ C1 Hg) as (w & a & Ew & E' & Sa & Ha); [auto|]. rewrite E in E'. injection E' as <-.
  destruct C1 as (HL & _ & HN & _ & Hns & _ & Sf & _). pose proof (hp_of_call _ _ _ _ Hns) as Hn.
  assert (CC := comp_conj_gen gl s L N nside f ltac:(lia) ltac:(lia) Hn Hg Sf HR).
  intros n l m Hk Hl Hm. rewrite !Ha by lia. rewrite (X3o_conj gl) by auto. rewrite Cconj_mult, Cconj_R. ring.
Qed.

(** ** The quadrature sums *)
Lemma elfactor_norm el : 0 <= el -> (elfactor el * norm3 el = 1)%R.
Proof.
  intros H. assert (P := PI_RGT_0). assert (H' : (0 < IZR (2 * el + 1))%R) by (apply IZR_lt; lia). unfold elfactor, norm3. rewrite <- sqrt_mult_alt.
  - replace (IZR (2 * el + 1) / (4 * PI) * (4 * PI / IZR (2 * el + 1)))%R with 1%R by (field; lra). apply sqrt_1.
  - left. apply Rdiv_lt_0_compat; lra.
Qed.
Lemma plain_grid s L nside x : s = DH \/ s = GL \/ s = HEALPIX -> gn (ogrid s L nside x) = rings s L nside /\
  (forall t, gN (ogrid s L nside x) t = ring_size s L nside t) /\ (forall t p, gph (ogrid s L nside x) t p = longitude s L nside t p) /\
  (forall sp f t p, fvals s L nside sp f t p = get f (sample_index s nside t p)).
Proof. intros [->|[->| ->]]; repeat split. Qed.
Lemma X3o_sum s L N nside Lo x f w n el m : s = DH \/ s = GL \/ s = HEALPIX -> 1 <= N -> 0 <= el ->
  (X3o (ogrid s L nside x) s L N nside Lo f w false n el m * RtoC (norm3 el))%C =
  if Z.max Lo (Z.abs n) <=? el then wigner_sum s L N nside (vat w) x (fun g t p => get f (g :: sample_index s nside t p)) n el m else RtoC 0.
Proof.
  intros Hs HN Hel. destruct (plain_grid s L nside x Hs) as (G1 & G2 & G3 & G4). unfold X3o. destruct (_ <=? el); [|ring].
  unfold SphForwardTop.fsum, wigner_sum. rewrite G1. rewrite Cmult_comm, Cmult_assoc, <- RtoC_mult, <- cs_scal_l. apply cr_ext. intros t Ht.
  rewrite Cmult_assoc, <- RtoC_mult, ogrid_th, Z.opp_involutive, sgn_opp. f_equal.
  - f_equal. transitivity (elfactor el * norm3 el * (sgn n * sgn n) * (vat w t * wigner_d el m n (x t)))%R; [ring|]. rewrite elfactor_norm, sgn_sq by auto. ring.
  - rewrite G2. apply cr_ext. intros p Hp. rewrite G3. f_equal. unfold uvals. cbn [andb]. rewrite G4. cbn [compA get]. unfold comp. f_equal.
    apply cr_ext. intros g Hg. f_equal. rewrite root_opp, <- gamma_root, cis_conj by auto. reflexivity.
Qed.
Lemma wigner_forward_sum gl th f L N s nside o reality Lo beta method p : s = DH \/ s = GL \/ s = HEALPIX ->
  wigner_forward_call gl th f L N s nside o reality Lo beta method p ->
  exists w flmn, quad_weights_transform gl L (scheme_name s) 0 o = Ok w /\
    otf_wigner_forward gl th f L N o (scheme_name s) method reality p Lo = Ok flmn /\
    holds_coefficients3 L N flmn (fun n el m => if Z.max Lo (Z.abs n) <=? el then
      wigner_sum s L N nside (vat w) (vat beta) (fun g t p => let z := get f (g :: sample_index s nside t p) in if reality then RtoC (Re z) else z) n el m else RtoC 0).
Proof.
  intros Hs HC. destruct (wigner_forward_call_ok _ _ _ _ _ _ _ _ _ _ _ _ _ HC) as (w & flmn & Ew & E & S1 & H1).
  destruct HC as (HL & _ & HN & _ & Hns & _ & Sf & _). pose proof (hp_of_call _ _ _ _ Hns) as Hn.
  exists w, flmn. split; [destruct Hs as [->|[->| ->]]; exact Ew|]. split; [exact E|]. split; [exact S1|]. intros n el m Hk Hel Hm. rewrite H1 by auto.
  assert (EX : out3 reality (X3o (ogrid s L nside (ring_angle (forward_scheme s) (vlen beta) (vat beta))) s L N nside Lo (seen reality f) w (streq method "numpy" && reality)) n el m =
    X3o (ogrid s L nside (ring_angle (forward_scheme s) (vlen beta) (vat beta))) s L N nside Lo (seen reality f) w false n el m).
  { destruct reality; [|now rewrite andb_false_r].
    assert (CC : forall n t p, - N < n < N -> in_grid (fgrid gl s L nside) t p ->
      fvals s L nside n (compA s L N nside (seen true f) (- n)%Z) t p = Cconj (fvals s L nside (- n) (compA s L N nside (seen true f) n) t p)).
    { intros k t q _ _. destruct (plain_grid s L nside (vat beta) Hs) as (_ & _ & _ & G4). rewrite !G4. cbn [compA get]. apply comp_real. reflexivity. }
    rewrite (out3_ext true _ (X3o (ogrid s L nside (ring_angle (forward_scheme s) (vlen beta) (vat beta))) s L N nside Lo (seen true f) w false)) by (apply (X3o_flag gl); auto; lia).
    now rewrite (X3o_out gl) by auto. }
  rewrite EX, X3o_sum by (auto; lia). destruct (_ <=? el); [|reflexivity].
  unfold wigner_sum. apply cr_ext. intros t Ht. f_equal.
  - replace (ring_angle (forward_scheme s) (vlen beta) (vat beta) t) with (vat beta t) by (destruct Hs as [->|[->| ->]]; reflexivity). reflexivity.
  - apply cr_ext. intros q Hq. f_equal. f_equal. apply cr_ext. intros g Hg'. f_equal. unfold seen. destruct reality; reflexivity.
Qed.

(** ** The reference transform *)
Lemma T3_X3 gl s L N nside Lo f f' w re n el m : 1 <= L -> 1 <= N -> (s = HEALPIX -> 1 <= nside) ->
  (forall n ix, sample_ix s L nside ix -> get (compA s L N nside f n) ix = get (compA s L N nside f' n) ix) ->
  (re = true -> forall t p, in_grid (fgrid gl s L nside) t p -> is_real (fvals s L nside 0 (compA s L N nside f' 0) t p)) ->
  T3 gl s L N nside Lo f w re n el m = X3 gl s L N Lo nside f' w n el m.
Proof.
  intros HL HN Hn HE HR. unfold T3, X3, coeffs. rewrite Z.abs_opp. f_equal. destruct (_ <=? el); [|reflexivity]. apply fsum_ext. intros t p IG.
  assert (EV : fvals s L nside (- n) (compA s L N nside f n) t p = fvals s L nside (- n) (compA s L N nside f' n) t p) by (apply (fvals_ext gl); auto).
  unfold uvals. rewrite EV. destruct (re && (n =? 0)) eqn:Q; [|reflexivity]. apply andb_prop in Q. destruct Q as [Q1 Q]. assert (n = 0) by lia. subst n. change (- 0) with 0.
  apply real_Re. now apply HR.
Qed.

Lemma wigner_forward_reference gl f L N s nside reality Lo eps : 2 <= L -> 1 <= N -> 0 <= Lo <= L - 2 -> (s = HEALPIX -> 1 <= nside /\ 2 * nside <= L) ->
  rule_sizes s L (gl_nodes gl L) (gl_weights gl L) -> forward_rings_away (vat (gl_nodes gl L)) s L nside ->
  shape f = 2 * N - 1 :: map_shape s L nside -> (reality = true -> so3_real_map (vat (gl_nodes gl L)) s L N nside f) -> (0 < eps)%R ->
  exists flmn0 delta, wigner_forward gl f L N Lo (scheme_name s) reality (Some nside) = Ok flmn0 /\ (0 < delta)%R /\
    forall th o beta method p, wigner_forward_call gl th f L N s nside o reality Lo beta method p -> forward_angles_near delta (vat (gl_nodes gl L)) s L nside beta ->
    exists flmn, otf_wigner_forward gl th f L N o (scheme_name s) method reality p Lo = Ok flmn /\ arrays_near eps flmn flmn0.
Proof.
  intros HL HN HLo Hn Hg Ha Sf HR He.
  assert (Hn1 : s = HEALPIX -> 1 <= nside) by (intros Q; apply (Hn Q)).
  assert (S : setting (scheme_name s) s L nside (Some nside)) by (split; [apply denotes_name|]; split; [lia|]; intros Q; auto).
  assert (HG : nodes_ok s L (gl_nodes gl L)).
  { intros -> i Hi. destruct (Ha (L - 1 - i)) as (x & [_ Q] & _); [cbn; lia|]. replace (L - 1 - (L - 1 - i)) with i in Q by lia. rewrite <- Q. apply COS_bound. }
  assert (CC : reality = true -> _) by (intros Q; exact (comp_conj_gen gl s L N nside f ltac:(lia) HN Hn1 HG Sf (HR Q))).
  assert (RS : reality = true -> forall ix, in_shape (shape f) ix -> is_real (get f ix)) by (intros Q; apply (real_samples_gen gl s L N nside f); auto; lia).
  destruct (weights_ok gl (scheme_name s) s L nside (Some nside) (denotes_name s) ltac:(lia) ltac:(intros Q; auto)) as (w & Ew & _). { intros Q. apply (Hg Q). }
  assert (RV : reality = true -> forall t p, in_grid (fgrid gl s L nside) t p -> is_real (fvals s L nside 0 (compA s L N nside f 0) t p)).
  { intros Q t p IG. apply (comp0_fvals gl s L N nside f (CC Q)); auto. }
  destruct (wigner_analysis gl s L N Lo nside (Some nside) f S HN ltac:(lia) Hg Ha ltac:(intros Q; apply (Hn Q)) Sf reality w Ew) as (a & Ea & Sa & Gaa).
  { intros Q g ix Hgg Hix. apply RS; auto. rewrite Sf. split; [exact Hgg|]. apply (sample_in gl); auto. lia. }
  { exact RV. }
  replace (fname (scheme_name s) s) with (scheme_name (fscheme s)) in Ew by (destruct s; reflexivity).
  destruct (wigner_forward_near gl f L N s nside reality Lo w eps HL Hn1 HG Ew He) as (delta & D & H).
  exists a, delta. split; [exact Ea|]. split; [exact D|]. intros th o beta method p HC HA.
  destruct (H th o beta method p f HC) as (flmn & E & S1 & H1); [|exact HA|].
  { split; [reflexivity|]. intros ix _. replace (get f ix - get f ix)%C with (RtoC 0) by ring. rewrite Cmod_0. exact D. }
  exists flmn. split; [exact E|]. split; [congruence|]. intros ix Hix. rewrite S1 in Hix. destruct ix as [|k [|el [|j [|]]]]; cbn [in_shape] in Hix; try tauto.
  specialize (H1 (k - N + 1) el (j - L + 1) ltac:(lia) ltac:(lia) ltac:(lia)). specialize (Gaa (k - N + 1) el (j - L + 1) ltac:(lia) ltac:(lia) ltac:(lia)). unfold stored3 in H1, Gaa.
  replace (k - N + 1 + N - 1) with k in H1, Gaa by lia. replace (j - L + 1 + L - 1) with j in H1, Gaa by lia. rewrite Gaa.
  rewrite (out3_ext reality _ (X3 gl s L N Lo nside f w)) in H1; [exact H1| |].
  - apply T3_X3; auto; [lia| |].
    + intros n ix' Hix'. unfold seen at 1. destruct reality eqn:ER; [|reflexivity]. apply (seen_comp gl); auto. lia.
    + intros Q. apply RV. destruct reality; auto. now rewrite andb_false_r in Q.
  - apply T3_X3; auto; [lia| |].
    + intros n ix' Hix'. unfold seen at 1. destruct reality eqn:ER; [|reflexivity]. apply (seen_comp gl); auto. lia.
    + intros Q. apply RV. destruct reality; auto. now rewrite andb_false_r in Q.
Qed.

(** ** Analysis and round trip *)
Lemma seen_holds gl s L N nside reality f c : 1 <= L -> (s = HEALPIX -> 1 <= nside) -> nodes_ok s L (gl_nodes gl L) -> (reality = true -> hermitian3 L N c) ->
  so3_holds (vat (gl_nodes gl L)) s L N nside f (so3_synth L N c) -> so3_holds (vat (gl_nodes gl L)) s L N nside (seen reality f) (so3_synth L N c).
Proof.
  intros HL Hn Hg Hr (Sf & Gf). split; [now rewrite seen_shape|]. intros g t p x H1 H2 H3 H4. unfold seen. destruct reality; [|now apply Gf].
  cbn [amap get]. rewrite (Gf g t p x) by auto. now apply real_Re, so3_synth_real, Hr.
Qed.
Lemma T3_exact gl s L N nside Lo reality re f w c n el m : 2 <= L -> 1 <= N -> 0 <= Lo -> s <> HEALPIX ->
  (s = GL -> gauss_legendre L (gl_nodes gl L) (gl_weights gl L)) -> quad_weights_transform gl L (scheme_name (fscheme s)) 0 (Some nside) = Ok w ->
  (reality = true -> hermitian3 L N c) -> (re = true -> reality = true) ->
  so3_holds (vat (gl_nodes gl L)) s L N nside f (so3_synth L N c) -> - N < n < N -> 0 <= el < L -> - L < m < L ->
  (T3 gl s L N nside Lo (seen reality f) w re n el m * RtoC (norm3 el) = restricted3 Lo c n el m)%C.
Proof.
  intros HL HN HLo Hs HG Ew Hr Hre HF Hn Hel Hm.
  assert (HG' : nodes_ok s L (gl_nodes gl L)).
  { intros Q i Hi. destruct (HG Q) as (_ & _ & B & _). specialize (B i Hi). lra. }
  destruct (seen_holds gl s L N nside reality f c ltac:(lia) ltac:(congruence) HG' Hr HF) as (Sf & Gf).
  unfold T3. rewrite (coeffs_exact gl _ L (- n) s nside (re && (n =? 0)) Lo w (fun l m => RtoC (2 * PI * sgn n) * (RtoC (so3_scale l) * c n l m))%C); auto.
  - unfold restricted, restricted3. rewrite Z.abs_opp. destruct (_ && _); [|ring].
    transitivity (RtoC (sgn n * sgn n) * RtoC (2 * PI * so3_scale el * norm3 el) * c n el m)%C; [rewrite !RtoC_mult; ring|].
    rewrite sgn_sq, scale_norm by lia. ring.
  - intros Q. apply andb_prop in Q. destruct Q as [Q1 Q]. assert (n = 0) by lia. subst n. split; [|reflexivity]. intros l k Hl Hk.
    rewrite !Cconj_mult, !Cconj_R. replace (c 0 l (- k)%Z) with (RtoC (sgn k) * Cconj (c 0 l k))%C; [ring|].
    pose proof (Hr (Hre Q1) 0 l k ltac:(lia) ltac:(lia) ltac:(lia)) as Q4. change (- 0) with 0 in Q4. rewrite Q4. now rewrite Z.add_0_r.
  - split; [reflexivity|]. intros t q x Ht Hq Hx. cbn [compA get].
    rewrite (comp_fourier N _ n _ (fun k => part3 L k (c k) (longitude s L nside t q) x)); [|lia|exact Hn|].
    + rewrite <- component, Cmult_assoc, <- RtoC_mult. unfold synth. rewrite <- cs_scal_l. apply cr_ext. intros l Hl. rewrite <- cs_scal_l. apply cr_ext. intros k Hk. ring.
    + intros g Hgg. rewrite (Gf g t q x) by auto. rewrite so3_synth_parts. apply cr_ext. intros k Hk. now rewrite gamma_root.
Qed.

Lemma wigner_recover_near gl f L N s nside reality Lo eps c : 2 <= L -> 1 <= N -> 0 <= Lo -> s <> HEALPIX ->
  (s = GL -> gauss_legendre L (gl_nodes gl L) (gl_weights gl L)) -> so3_holds (vat (gl_nodes gl L)) s L N nside f (so3_synth L N c) ->
  (reality = true -> hermitian3 L N c) -> (0 < eps)%R ->
  exists delta, (0 < delta)%R /\ forall th o beta method p f', wigner_forward_call gl th f' L N s nside o reality Lo beta method p ->
    arrays_near delta f' f -> forward_angles_near delta (vat (gl_nodes gl L)) s L nside beta ->
    exists flmn, otf_wigner_forward gl th f' L N o (scheme_name s) method reality p Lo = Ok flmn /\ coefficients3_near eps L N flmn (restricted3 Lo c).
Proof.
  intros HL HN HLo Hs HG HF Hr He.
  assert (HG' : nodes_ok s L (gl_nodes gl L)).
  { intros Q i Hi. destruct (HG Q) as (_ & _ & B & _). specialize (B i Hi). lra. }
  destruct (weights_ok gl (scheme_name s) s L nside (Some nside) (denotes_name s) ltac:(lia) ltac:(intros; congruence)) as (w & Ew & _).
  { intros Q. apply (HG Q). }
  replace (fname (scheme_name s) s) with (scheme_name (fscheme s)) in Ew by (destruct s; reflexivity).
  destruct (wigner_forward_near gl f L N s nside reality Lo w eps HL ltac:(congruence) HG' Ew He) as (delta & D & H).
  exists delta. split; [exact D|]. intros th o beta method p f' HC Hf' HA. destruct (H th o beta method p f' HC Hf' HA) as (flmn & E & S1 & H1).
  exists flmn. split; [exact E|]. split; [exact S1|]. intros n el m Hk Hel Hm. specialize (H1 n el m Hk Hel Hm).
  assert (FL : streq method "numpy" && reality = true -> reality = true) by (destruct reality; auto; now rewrite andb_false_r).
  assert (XV : forall n m, - N < n < N -> - L < m < L -> (T3 gl s L N nside Lo (seen reality f) w (streq method "numpy" && reality) n el m * RtoC (norm3 el) = restricted3 Lo c n el m)%C).
  { intros k q H2 H3. now apply T3_exact. }
  replace (restricted3 Lo c n el m) with (out3 reality (T3 gl s L N nside Lo (seen reality f) w (streq method "numpy" && reality)) n el m * RtoC (norm3 el))%C; [exact H1|].
  unfold out3. destruct (reality && (n <? 0)) eqn:Q; [|now apply XV]. apply andb_prop in Q. destruct Q as (Q1 & Q2).
  transitivity (RtoC (sgn (m + n)) * Cconj (T3 gl s L N nside Lo (seen reality f) w (streq method "numpy" && reality) (- n)%Z el (- m)%Z * RtoC (norm3 el)))%C; [rewrite Cconj_mult, Cconj_R; ring|].
  rewrite XV by lia. unfold restricted3. rewrite !Z.abs_opp. destruct ((Z.max Lo (Z.abs n) <=? el) && (Z.abs m <=? el)) eqn:B; [|rewrite Cconj_R; ring].
  rewrite (Hr Q1 n el m) by lia. rewrite Cconj_mult, Cconj_R, Cconj_conj, Cmult_assoc, <- RtoC_mult, sgn_sq. ring.
Qed.

Lemma wigner_round_trip_near gl flmn L N s nside reality Lo eps : 2 <= L -> 1 <= N -> 0 <= Lo -> s <> HEALPIX ->
  (s = GL -> gauss_legendre L (gl_nodes gl L) (gl_weights gl L)) -> shape flmn = [2 * N - 1; L; 2 * L - 1] ->
  (reality = true -> hermitian3 L N (stored3 L N flmn)) -> (0 < eps)%R ->
  exists delta, (0 < delta)%R /\ forall th o beta beta' minv mfwd p p',
    wigner_inverse_call th flmn L N s nside o reality Lo beta minv p -> angles_near delta (vat (gl_nodes gl L)) s L nside beta ->
    fwd_angles th s L o = Ok beta' -> forward_angles_near delta (vat (gl_nodes gl L)) s L nside beta' ->
    usable_rings3 (forward_scheme s) (vlen beta') L Lo N (vat beta') -> python_method3 mfwd ->
    wigner_precomps mfwd th L N s o true reality Lo (inner_angles (forward_scheme s) beta') p' ->
    exists f flmn', otf_wigner_inverse th flmn L N o (scheme_name s) minv reality p Lo = Ok f /\
      otf_wigner_forward gl th f L N o (scheme_name s) mfwd reality p' Lo = Ok flmn' /\
      coefficients3_near eps L N flmn' (restricted3 Lo (stored3 L N flmn)).
Proof.
  intros HL HN HLo Hs HG Sf Hr He.
  set (c := used3 reality Lo (stored3 L N flmn)).
  assert (HG' : nodes_ok s L (gl_nodes gl L)).
  { intros Q i Hi. destruct (HG Q) as (_ & _ & B & _). specialize (B i Hi). lra. }
  assert (Hn1 : s = HEALPIX -> 1 <= nside) by congruence.
  set (f0 := mkArr (2 * N - 1 :: map_shape s L nside) (fun ix => so3_synth L N c (longitude s L nside (nth 1 ix 0%Z) (nth 2 ix 0%Z)) (th_of gl s L nside (nth 1 ix 0%Z)) (2 * PI * IZR (nth 0 ix 0%Z) / IZR (2 * N - 1))%R)).
  assert (SI : forall t p, sample_index s nside t p = [t; p]) by (intros; destruct s; try congruence; reflexivity).
  assert (Hf0 : so3_holds (vat (gl_nodes gl L)) s L N nside f0 (so3_synth L N c)).
  { split; [reflexivity|]. intros g t p x Hg Ht Hp Hx. rewrite SI. cbn [f0 get nth]. rewrite (colat_unique gl s L nside t x); auto. }
  assert (Hc : reality = true -> hermitian3 L N c).
  { intros Q n l m Hn Hl Hm. unfold c. rewrite !(used3_herm L N Lo _ _ _ _ reality) by (auto; lia). unfold used3.
    destruct (l <? Lo); [rewrite Cconj_R; ring|]. now apply (Hr Q). }
  destruct (wigner_recover_near gl f0 L N s nside reality Lo eps c) as (d2 & D2 & H2); auto.
  destruct (wigner_inverse_near gl flmn L N s nside reality Lo d2 ltac:(lia) Hn1 HG' D2) as (d1 & D1 & H1).
  exists (Rmin d1 d2). assert (Dm : (0 < Rmin d1 d2)%R) by now apply Rmin_glb_lt. split; [exact Dm|]. intros th o beta beta' minv mfwd p p' C1 A1 E2 A2 U2 M2 P2.
  destruct (H1 th o beta minv p C1) as (f & Ef & Sff & Hf1).
  { eapply angles_mono; [|exact A1]. split; [exact Dm|apply Rmin_l]. }
  destruct (H2 th o beta' mfwd p' f) as (flmn' & El & Sl & Hl).
  { destruct C1 as (_ & HLo' & HN' & H8 & _). split; [exact HL|]. split; [exact HLo'|]. split; [exact HN'|]. split; [exact H8|]. split; [congruence|]. split; [congruence|].
    split; [exact Sff|]. split; [intros Q; apply (HG Q)|]. split; [exact E2|]. split; [apply A2|]. split; [exact U2|]. split; [exact M2|exact P2]. }
  { split; [exact Sff|]. intros ix Hix. rewrite Sff in Hix. destruct (so3_cover' s L N nside ix ltac:(lia) Hn1 Hix) as (g & t & q & -> & Hg & Ht & Hq).
    rewrite (proj2 Hf0 g t q (th_of gl s L nside t)); auto; [apply Hf1; auto|]; now apply placed. }
  { eapply angles_mono; [|exact A2]. split; [exact Dm|apply Rmin_r]. }
  exists f, flmn'. split; [exact Ef|]. split; [exact El|]. split; [exact Sl|]. intros n el m Hk Hel Hm. specialize (Hl n el m Hk Hel Hm).
  replace (restricted3 Lo (stored3 L N flmn) n el m) with (restricted3 Lo c n el m); [exact Hl|].
  unfold restricted3. destruct (_ && _) eqn:B; [|reflexivity]. unfold c.
  transitivity (used3 false Lo (stored3 L N flmn) n el m).
  - destruct reality; [|reflexivity]. apply (used3_herm L N); auto; lia.
  - unfold used3. now replace (el <? Lo) with false by lia.
Qed.

(** ** Degrees below |n| and L_lower *)
Lemma wigner_forward_low gl th f L N s nside o reality Lo beta method p : wigner_forward_call gl th f L N s nside o reality Lo beta method p ->
  exists flmn, otf_wigner_forward gl th f L N o (scheme_name s) method reality p Lo = Ok flmn /\ shape flmn = [2 * N - 1; L; 2 * L - 1] /\
    forall n el m, - N < n < N -> 0 <= el < L -> el < Z.max Lo (Z.abs n) -> - L < m < L -> stored3 L N flmn n el m = RtoC 0.
Proof.
  intros HC. destruct (wigner_forward_call_ok _ _ _ _ _ _ _ _ _ _ _ _ _ HC) as (w & flmn & Ew & E & S1 & H1).
  exists flmn. split; [exact E|]. split; [exact S1|]. intros n el m Hk Hel Hlow Hm. rewrite H1 by auto. unfold out3, X3o. rewrite Z.abs_opp.
  replace (Z.max Lo (Z.abs n) <=? el) with false by lia. destruct (reality && (n <? 0)); [rewrite Cconj_mult, !Cconj_R|]; ring.
Qed.

(** ** Angles regular for every spin *)
Lemma many_triples (P : list (Z * (Z * Z))) (B : Z) : (forall p, In p P -> (Z.abs (fst (snd p)) <= fst p)%Z /\ (Z.abs (snd (snd p)) <= fst p)%Z /\ (fst p < B)%Z) ->
  forall l, NoDup l -> (forall x, In x l -> 0 < x < PI)%R -> (length P * Z.to_nat (2 * B) < length l)%nat ->
  exists x, In x l /\ forall p, In p P -> wigner_d (fst p) (fst (snd p)) (snd (snd p)) x <> 0%R.
Proof.
  induction P as [|[el [m n]] P IH]; intros HP l Hl Hr Hlen.
  - destruct l as [|x l]; [cbn in Hlen; lia|]. exists x. split; [now left|]. intros p [].
  - destruct (HP (el, (m, n)) (or_introl eq_refl)) as (H1 & H2 & H3). cbn [fst snd] in *.
    destruct (one_pair el m n l H1 H2 Hl Hr) as (l' & N' & I' & Z' & L'). cbn [length] in Hlen.
    destruct (IH (fun p Hp => HP p (or_intror Hp)) l' N') as (x & Hx & Hall).
    + intros x Hx. apply Hr, I', Hx.
    + rewrite Nat.mul_succ_l in Hlen. lia.
    + exists x. split; [apply I', Hx|]. intros p [<-|Hp]; [apply Z', Hx|apply Hall, Hp].
Qed.
Lemma regular_dense3 L Lo N a b : (0 <= a < b)%R -> (b <= PI)%R -> N <= L -> exists x, (a < x < b)%R /\ forall n, - N < n < N -> regular L Lo n x.
Proof.
  intros Hab Hb HL.
  set (P := list_prod (zrange 0 L) (list_prod (zrange (- L) L) (zrange (- N + 1) N))).
  set (P' := filter (fun p => (Z.abs (fst (snd p)) <=? fst p) && (Z.abs (snd (snd p)) <=? fst p)) P).
  set (K := (length P' * Z.to_nat (2 * L))%nat).
  set (pts := map (fun i => (a + (b - a) * (IZR i / IZR (Z.of_nat K + 2)))%R) (zrange 1 (Z.of_nat K + 2))).
  assert (HK : (0 < IZR (Z.of_nat K + 2))%R) by (apply IZR_lt; lia).
  assert (Hpts : forall x, In x pts -> (a < x < b)%R).
  { intros x Hx. apply in_map_iff in Hx. destruct Hx as (i & <- & Hi). apply in_zrange in Hi.
    assert (0 < IZR i / IZR (Z.of_nat K + 2))%R by (apply Rdiv_lt_0_compat; [apply IZR_lt; lia|exact HK]).
    assert (IZR i / IZR (Z.of_nat K + 2) < 1)%R by (apply (Rmult_lt_reg_r (IZR (Z.of_nat K + 2))); [exact HK|]; replace (IZR i / IZR (Z.of_nat K + 2) * IZR (Z.of_nat K + 2))%R with (IZR i) by (field; lra); rewrite Rmult_1_l; apply IZR_lt; lia).
    split; nra. }
  destruct (many_triples P' L) with (l := pts) as (x & Hx & Hall).
  - intros p Hp. apply filter_In in Hp. destruct Hp as [Hp Hq]. apply andb_prop in Hq. destruct p as [el [m n]]. unfold P in Hp.
    apply in_prod_iff in Hp. destruct Hp as [Hp _]. apply in_zrange in Hp. cbn [fst snd] in *. lia.
  - apply NoDup_map_in; [|apply zrange_NoDup]. intros i j _ _ H. apply eq_IZR.
    assert (H0 : (IZR i / IZR (Z.of_nat K + 2) = IZR j / IZR (Z.of_nat K + 2))%R) by (apply (Rmult_eq_reg_l (b - a)); lra).
    apply (Rmult_eq_reg_r (/ IZR (Z.of_nat K + 2))); [exact H0|]. apply Rinv_neq_0_compat. lra.
  - intros x Hx. specialize (Hpts x Hx). lra.
  - unfold pts. rewrite map_length, zrange_length. fold K. lia.
  - exists x. split; [auto|]. specialize (Hpts x Hx). intros n Hn. split; [lra|]. intros el m Hel Hm. apply (Hall (el, (m, n))). apply filter_In. split.
    + apply in_prod; [apply in_zrange; lia|]. apply in_prod; apply in_zrange; lia.
    + cbn [fst snd]. lia.
Qed.
Lemma near_regular3 L Lo N x delta : (0 <= x <= PI)%R -> (0 < delta)%R -> N <= L -> exists y, (Rabs (y - x) < delta)%R /\ forall n, - N < n < N -> regular L Lo n y.
Proof.
  intros Hx Hd Hn. pose proof PI_RGT_0 as HP.
  destruct (Rlt_dec x PI) as [Hlt|Hge].
  - destruct (regular_dense3 L Lo N x (Rmin PI (x + delta))) as (y & Hy & Hr); auto.
    + split; [lra|]. apply Rmin_glb_lt; lra.
    + apply Rmin_l.
    + exists y. split; [|exact Hr]. pose proof (Rmin_r PI (x + delta)). apply Rabs_def1; lra.
  - destruct (regular_dense3 L Lo N (Rmax 0 (x - delta)) PI) as (y & Hy & Hr); auto.
    + split; [apply Rmax_l|]. apply Rmax_lub_lt; lra.
    + lra.
    + exists y. split; [|exact Hr]. pose proof (Rmax_r 0 (x - delta)). apply Rabs_def1; lra.
Qed.
Lemma near_angles3 gl s L nside L' Lo N delta : 1 <= L -> (s = HEALPIX -> 1 <= nside) -> N <= L' -> (0 < delta)%R ->
  exists beta, angles_near delta (vat (gl_nodes gl L)) s L nside beta /\ usable_rings3 s (rings s L nside) L' Lo N (vat beta).
Proof.
  intros HL Hn Hs Hd.
  destruct (choose 0%R (fun t y => (Rabs (y - th_of gl s L nside t) < delta)%R /\ forall n, - N < n < N -> regular L' Lo n y) (rings s L nside)) as (F & HF).
  { intros t Ht. apply near_regular3; [now apply th_of_range|exact Hd|lia]. }
  exists (mkVec (rings s L nside) F). split.
  - split; [reflexivity|]. intros t x Ht Hx. rewrite (colat_unique gl s L nside t x) by auto. now apply HF.
  - intros k t Hk Ht _. apply HF; auto. lia.
Qed.
Lemma precomps_none3 th L N s o reality Lo beta beta' method : th L (scheme_name s) o = Ok beta -> fwd_angles th s L o = Ok beta' ->
  wigner_precomps method th L N s o false reality Lo beta None /\ wigner_precomps method th L N s o true reality Lo (inner_angles (forward_scheme s) beta') None.
Proof.
  intros E E'. unfold wigner_precomps. split; (split; [|now left]).
  - unfold pm_thetas. cbn [andb]. exact E.
  - unfold pm_thetas. cbn [andb]. destruct s; cbn [fwd_angles forward_scheme inner_angles scheme_name] in *; cbn -[Z.mul vslice]; rewrite E'; reflexivity.
Qed.
Lemma angles_exist3 gl s L nside Lo N delta : 1 <= L -> (s = HEALPIX -> 1 <= nside) -> N <= L -> (0 < delta)%R ->
  exists (th : theta_fn) beta beta', forall o,
    th L (scheme_name s) o = Ok beta /\ angles_near delta (vat (gl_nodes gl L)) s L nside beta /\ usable_rings3 s (rings s L nside) L Lo N (vat beta) /\
    fwd_angles th s L o = Ok beta' /\ forward_angles_near delta (vat (gl_nodes gl L)) s L nside beta' /\
    usable_rings3 (forward_scheme s) (vlen beta') L Lo N (vat beta') /\
    forall method reality, wigner_precomps method th L N s o false reality Lo beta None /\
      wigner_precomps method th L N s o true reality Lo (inner_angles (forward_scheme s) beta') None.
Proof.
  intros HL Hn Hs Hd. destruct (near_angles3 gl s L nside L Lo N delta HL Hn Hs Hd) as (b & A & U).
  assert (D : s = MW \/ s = MWSS \/ (forward_scheme s = s /\ forward_band s L = L)) by (destruct s; auto).
  assert (F : exists b', (forward_scheme s = s -> forward_band s L = L -> b' = b) /\ forward_angles_near delta (vat (gl_nodes gl L)) s L nside b' /\
    usable_rings3 (forward_scheme s) (vlen b') L Lo N (vat b')).
  { assert (M : s = MW \/ s = MWSS -> exists b', (forward_scheme s = s -> forward_band s L = L -> b' = b) /\
      forward_angles_near delta (vat (gl_nodes gl L)) s L nside b' /\ usable_rings3 (forward_scheme s) (vlen b') L Lo N (vat b')).
    { intros Q. destruct (near_angles3 gl MWSS (2 * L) nside L Lo N delta ltac:(lia) ltac:(discriminate) Hs Hd) as (b' & A' & U'). exists b'.
      split; [destruct Q as [-> | ->]; cbn [forward_band]; intros; lia|]. split.
      - destruct Q as [-> | ->]; exact A'.
      - rewrite (proj1 A'). destruct Q as [-> | ->]; exact U'. }
    destruct D as [D|[D|[D1 D2]]]; auto. exists b. split; [auto|]. split.
    - unfold forward_angles_near. now rewrite D1, D2.
    - rewrite D1, (proj1 A). exact U. }
  destruct F as (b' & Fb & A' & U').
  set (th := (fun L' name o => if streq name "mwss" && (L' =? 2 * L) then Ok b' else Ok b) : theta_fn).
  assert (E1 : forall o, th L (scheme_name s) o = Ok b). { intros o. unfold th. replace (L =? 2 * L) with false by lia. now rewrite andb_false_r. }
  assert (E2 : forall o, fwd_angles th s L o = Ok b').
  { intros o. unfold fwd_angles. destruct D as [D|[D|[D1 D2]]]; [rewrite D|rewrite D|].
    - unfold th. rewrite Z.eqb_refl. reflexivity.
    - unfold th. rewrite Z.eqb_refl. reflexivity.
    - rewrite (Fb D1 D2). destruct s; try discriminate; try exact (E1 o). cbn [forward_band] in D2. lia. }
  exists th, b, b'. intros o. split; [apply E1|]. split; [exact A|]. split; [exact U|]. split; [apply E2|]. split; [exact A'|]. split; [exact U'|].
  intros method reality. apply precomps_none3; auto.
Qed.
