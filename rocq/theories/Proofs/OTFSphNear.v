(** The on-the-fly transforms at angles close to the colatitudes of the rings. *)
From Coq Require Import Reals ZifyBool Lra.
From Coquelicot Require Import Complex.
From Verif Require Import Lib.Py Lib.PyFacts Lib.Vec Lib.VecFacts Lib.Sums Lib.Cplx Lib.Arr Lib.ArrFacts Lib.MatFacts Lib.Ext Lib.ExtFacts Lib.Lim
  Model.Index Model.Samples Model.Grids Model.FFT Model.HealpixFFT Model.Turok Model.Risbo Model.Resampling Model.Quadrature
  Model.Spherical Model.Precompute Model.PriceMcEwen Model.OTF Model.OTFSpherical
  Spec.SamplesSpec Spec.WignerSpec Spec.SphereSpec Spec.GridSpec Spec.HealpixFFTSpec Spec.SphericalSpec Spec.QuadSpec Spec.OTFSpec Spec.OTFSphericalSpec
  Proofs.SamplesProofs Proofs.GridProofs Proofs.TurokProofs Proofs.HealpixDFTProofs Proofs.SphereTheory Proofs.SphGrid Proofs.SphInverse Proofs.SphTop Proofs.SphForward Proofs.SphForwardTop
  Proofs.SphFacts Proofs.PrecomputeSph Proofs.PMPre Proofs.OTFProofs Proofs.OTFTop Proofs.OTFLimit Proofs.OTFSphInverse Proofs.OTFSphForward
  Spec.CallSpec.
From Coq Require Import List.
Import ListNotations.
Open Scope string_scope.
Open Scope Z_scope.

(** ** Continuity *)
Section Cont.
  Context {T : Type} (P : R -> T -> Prop).
  Hypothesis mono : forall d d' u, (0 < d' <= d)%R -> P d' u -> P d u.
  Definition close (a : T -> R) (x : R) : Prop := forall d u, (0 < d)%R -> P d u -> (Rabs (a u - x) < d)%R.
  Lemma lim_wigner l m n a x : close a x -> lim P (fun u => RtoC (wigner_d l m n (a u))) (RtoC (wigner_d l m n x)).
  Proof.
    intros Ha eps He. destruct (wigner_close l m n x eps He) as (d & Hd & H). exists d. split; [exact Hd|]. intros u Hu.
    rewrite <- RtoC_minus, Cmod_R. apply H. now apply Ha.
  Qed.
  Lemma lim_synth L s c a x phi : close a x -> lim P (fun u => synth L s c (a u) phi) (synth L s c x phi).
  Proof.
    intros Ha. unfold synth. apply lim_sum; [exact mono|]. intros l _. apply lim_sum; [exact mono|]. intros m _.
    apply lim_mult; [exact mono|apply lim_const|]. unfold sYlm.
    apply lim_mult; [exact mono| |apply lim_const].
    apply (lim_ext P (fun u => RtoC (sgn s * sqrt (IZR (2 * l + 1) / (4 * PI)))%R * RtoC (wigner_d l m (- s) (a u)))%C);
      [intros u; symmetry; apply RtoC_mult|].
    rewrite (RtoC_mult _ (wigner_d l m (- s) x)). apply lim_mult; [exact mono|apply lim_const|]. now apply lim_wigner.
  Qed.
  Lemma lim_fsum (g : T -> grid) g0 spin w (v : T -> Z -> Z -> C) v0 el m :
    (forall u, gn (g u) = gn g0) -> (forall u t, gN (g u) t = gN g0 t) -> (forall u t p, gph (g u) t p = gph g0 t p) ->
    (forall t, 0 <= t < gn g0 -> close (fun u => gth (g u) t) (gth g0 t)) ->
    (forall t p, in_grid g0 t p -> lim P (fun u => v u t p) (v0 t p)) ->
    lim P (fun u => SphForwardTop.fsum (g u) spin w (v u) el m) (SphForwardTop.fsum g0 spin w v0 el m).
  Proof.
    intros E1 E2 E3 Hth Hv.
    apply (lim_ext P (fun u => csum (zrange 0 (gn g0)) (fun t => (RtoC (vat w t * sgn spin * elfactor el)%R * RtoC (wigner_d el m (- spin) (gth (g u) t)) *
      csum (zrange 0 (gN g0 t)) (fun p => cis (- (IZR m * gph g0 t p)) * v u t p))%C))).
    { intros u. unfold SphForwardTop.fsum. rewrite E1. apply cr_ext. intros t Ht. rewrite E2. rewrite <- RtoC_mult. f_equal.
      apply cr_ext. intros p Hp. now rewrite E3. }
    unfold SphForwardTop.fsum. apply lim_sum; [exact mono|]. intros t Ht. apply in_zrange in Ht. apply lim_mult; [exact mono| |].
    - rewrite (RtoC_mult _ (wigner_d el m (- spin) (gth g0 t))). apply lim_mult; [exact mono|apply lim_const|]. apply lim_wigner. auto.
    - apply lim_sum; [exact mono|]. intros p Hp. apply in_zrange in Hp. apply lim_mult; [exact mono|apply lim_const|]. apply Hv. now split.
  Qed.
End Cont.

(** ** Linear functions of arrays are bounded *)
Fixpoint all_ix (sh : list Z) : list (list Z) :=
  match sh with [] => [[]] | n :: sh' => flat_map (fun i => map (cons i) (all_ix sh')) (zrange 0 n) end.
Lemma in_all_ix sh ix : in_shape sh ix -> In ix (all_ix sh).
Proof.
  revert ix. induction sh as [|n sh IH]; intros [|i ix]; cbn; try tauto. intros [Hi Hx]. apply in_flat_map. exists i.
  split; [apply in_zrange; lia|]. apply in_map. now apply IH.
Qed.

Lemma all_ix_in sh ix : In ix (all_ix sh) -> in_shape sh ix.
Proof.
  revert ix. induction sh as [|n sh IH]; cbn [all_ix]; intros ix.
  - intros [<-|[]]. exact I.
  - intros H. apply in_flat_map in H. destruct H as (i & Hi & H). apply in_map_iff in H. destruct H as (ix' & <- & H).
    apply in_zrange in Hi. split; [lia|now apply IH].
Qed.

Section Bounded.
  Variables (sh : list Z) (phi : ndarray C -> C).
  Hypothesis lin : forall x y f g h, shape h = sh -> combination x y f g h -> phi h = (x * phi f + y * phi g)%C.
  Lemma bounded_on l : (forall ix, In ix l -> in_shape sh ix) -> exists K, (0 <= K)%R /\ forall h e, (0 <= e)%R -> shape h = sh ->
    (forall ix, in_shape sh ix -> ~ In ix l -> get h ix = RtoC 0) -> (forall ix, in_shape sh ix -> (Cmod (get h ix) <= e)%R) ->
    (Cmod (phi h) <= K * e)%R.
  Proof.
    induction l as [|a l IH]; intros Hl.
    - exists 0%R. split; [lra|]. intros h e He Hh H0 _.
      assert (E : phi h = (RtoC 0 * phi h + RtoC 0 * phi h)%C).
      { apply lin; [exact Hh|]. split; [reflexivity|]. split; [reflexivity|]. intros ix Hix. rewrite H0; [ring|now rewrite <- Hh|intros []]. }
      rewrite E. replace (RtoC 0 * phi h + RtoC 0 * phi h)%C with (RtoC 0) by ring. rewrite Cmod_0. lra.
    - destruct IH as (K & HK & IH); [intros ix Hi; apply Hl; now right|].
      set (ea := mkArr sh (fun ix => if list_eq_dec Z.eq_dec ix a then RtoC 1 else RtoC 0)).
      exists (K + Cmod (phi ea))%R. split; [pose proof (Cmod_ge_0 (phi ea)); lra|]. intros h e He Hh H0 Hb.
      set (h' := mkArr sh (fun ix => if list_eq_dec Z.eq_dec ix a then RtoC 0 else get h ix)).
      assert (B1 : (Cmod (phi h') <= K * e)%R).
      { apply IH; auto; cbn [h' get]; intros ix Hix.
        - intros Hni. destruct (list_eq_dec Z.eq_dec ix a) as [->|Hne]; [reflexivity|]. apply H0; auto. intros [Q|Q]; [now apply Hne|now apply Hni].
        - destruct (list_eq_dec Z.eq_dec ix a); [rewrite Cmod_0; exact He|auto]. }
      assert (E : phi h = (RtoC 1 * phi h' + get h a * phi ea)%C).
      { apply lin; [exact Hh|]. split; [symmetry; exact Hh|]. split; [symmetry; exact Hh|]. intros ix Hix. cbn [h' ea get].
        destruct (list_eq_dec Z.eq_dec ix a) as [->|]; ring. }
      rewrite E. eapply Rle_trans; [apply Cmod_triangle|]. rewrite Cmult_1_l, Cmod_mult.
      assert (Ba : (Cmod (get h a) <= e)%R) by (apply Hb, Hl; now left).
      assert (Cmod (get h a) * Cmod (phi ea) <= e * Cmod (phi ea))%R by (apply Rmult_le_compat_r; [apply Cmod_ge_0|exact Ba]). lra.
  Qed.
  Lemma bounded_linear : exists K, (0 <= K)%R /\ forall h e, (0 <= e)%R -> shape h = sh ->
    (forall ix, in_shape sh ix -> (Cmod (get h ix) <= e)%R) -> (Cmod (phi h) <= K * e)%R.
  Proof.
    destruct (bounded_on (all_ix sh) (all_ix_in sh)) as (K & HK & H). exists K. split; [exact HK|]. intros h e He Hh Hb. apply H; auto.
    intros ix Hix Hni. destruct Hni. now apply in_all_ix.
  Qed.
  (** arrays that tend to f0 *)
  Lemma lim_linear {T} (P : R -> T -> Prop) (f : T -> ndarray C) f0 : shape f0 = sh ->
    (forall d u, (0 < d)%R -> P d u -> arrays_near d (f u) f0) -> lim P (fun u => phi (f u)) (phi f0).
  Proof.
    intros Hf0 H eps He. destruct bounded_linear as (K & HK & HB). exists (eps / (K + 1))%R.
    assert (D : (0 < eps / (K + 1))%R) by (apply Rdiv_lt_0_compat; lra). split; [exact D|]. intros u Hu.
    destruct (H _ u D Hu) as [S1 S2].
    set (h := mkArr sh (fun ix => (get (f u) ix - get f0 ix)%C)).
    assert (E : phi h = (RtoC 1 * phi (f u) + RtoC (-1) * phi f0)%C).
    { apply lin; [reflexivity|]. split; [cbn; congruence|]. split; [cbn; congruence|]. intros ix _. cbn [h get]. apply C_eq; cbn; ring. }
    replace (phi (f u) - phi f0)%C with (phi h) by (rewrite E; apply C_eq; cbn; ring).
    eapply Rle_lt_trans; [apply (HB h (eps / (K + 1))%R); [lra|reflexivity|]|].
    - intros ix Hix. cbn [h get]. left. apply S2. rewrite S1, Hf0. exact Hix.
    - apply (Rmult_lt_reg_r (K + 1)); [lra|]. replace (K * (eps / (K + 1)) * (K + 1))%R with (K * eps)%R by (field; lra). lra.
  Qed.
End Bounded.

(** ** The entry points *)

Lemma is_hp_false s : s <> HEALPIX -> is_hp (scheme_name s) = false.
Proof. intros H. destruct s; try congruence; reflexivity. Qed.

Lemma otf_inverse_lemma th flm L spin s nside o reality Lo beta method p :
  2 <= L -> 0 <= Lo <= L - 2 -> Z.abs spin < L -> spin < 8 -> (s = HEALPIX -> 1 <= nside /\ o = Some nside /\ 2 * nside <= L) ->
  shape flm = [L; 2 * L - 1] -> spin_zero L spin flm -> (reality = true -> spin = 0) ->
  (reality = true -> forall el, 0 <= el < L -> is_real (stored L flm el 0)) ->
  th L (scheme_name s) o = Ok beta -> vlen beta = rings s L nside ->
  (forall t, 0 <= t < rings s L nside -> usable_ring s (rings s L nside) L Lo spin (vat beta) t) ->
  python_method method s -> method_precomps method th L spin s o false Lo beta p ->
  exists f, otf_inverse th flm L spin o (scheme_name s) method reality p Lo = Ok f /\
    samples_at (ring_angle s (rings s L nside) (vat beta)) s L nside f (synth L spin (used_coefficients reality spin Lo (stored L flm))).
Proof.
  intros HL HLo Hs H8 Hn Hf Hz Hre Hre0 Eth Hb Hu Hm HP.
  assert (E8 : 8 <=? spin = false) by lia.
  destruct Hm as [->|[->|[->|[-> Hh]]]]; unfold otf_inverse, run_inverse; cbn [known_method str_in existsb String.eqb Ascii.eqb Bool.eqb negb orb andb streq]; rewrite E8; cbn.
  - apply inverse_numpy_lemma; auto.
  - apply inverse_jax_lemma; auto.
  - apply inverse_jax_lemma; auto.
  - rewrite is_hp_false by exact Hh. cbn. apply inverse_jax_lemma; auto.
Qed.

Lemma otf_forward_lemma gl th f L spin s nside o reality Lo beta method p iter :
  2 <= L -> 0 <= Lo <= L - 2 -> Z.abs spin < L -> spin < 8 -> (s = HEALPIX -> 1 <= nside /\ o = Some nside /\ 2 * nside <= L) ->
  (s = HEALPIX -> method <> "numpy" -> 2 <= nside) ->
  shape f = map_shape s L nside -> (s = GL -> vlen (gl_weights gl L) = L) -> (reality = true -> spin = 0) ->
  (reality = true -> s = HEALPIX -> real_values gl s L nside spin f) ->
  fwd_angles th s L o = Ok beta -> vlen beta = gn (fgrid gl s L nside) ->
  (forall t, 0 <= t < vlen beta -> usable_ring (fscheme s) (vlen beta) L Lo spin (vat beta) t) ->
  python_method method s -> method_precomps method th L spin s o true Lo (inner_angles (fscheme s) beta) p ->
  (iter = None \/ exists k, iter = Some k /\ k <= 0) ->
  exists w flm, quad_weights_transform gl L (scheme_name (fscheme s)) 0 o = Ok w /\
    otf_forward gl th f L spin o (scheme_name s) method reality p Lo iter = Ok flm /\
    holds_coefficients L flm (fun el m => if Z.max Lo (Z.abs spin) <=? el then
      SphForwardTop.fsum (ogrid s L nside (ring_angle (fscheme s) (vlen beta) (vat beta))) spin w (uvals reality s L nside spin f) el m else RtoC 0).
Proof.
  intros HL HLo Hs H8 Hn Hn2 Hf Hg Hre Hreal Eth Hb Hu Hm HP Hi.
  assert (E8 : 8 <=? spin = false) by lia.
  assert (EI : forall m, m <> "jax_healpy" -> (0 <? match iter with Some n => n | None => if is_hp (scheme_name s) && streq m "jax_healpy" then 3 else 0 end) = false).
  { intros m Hmm. destruct Hi as [->|(k & -> & Hk)]; [|lia]. replace (streq m "jax_healpy") with false; [now rewrite andb_false_r|].
    symmetry. apply String.eqb_neq. exact Hmm. }
  destruct Hm as [->|[->|[->|[-> Hh]]]]; unfold otf_forward, run_forward; rewrite E8, EI by discriminate;
    cbn [known_method str_in existsb String.eqb Ascii.eqb Bool.eqb negb orb andb streq backend_checks bind].
  - apply forward_numpy_lemma; auto.
  - apply forward_jax_lemma; auto. intros Q. apply Hn2; auto. discriminate.
  - apply forward_jax_lemma; auto. intros Q. apply Hn2; auto. discriminate.
  - rewrite is_hp_false by exact Hh. cbn. apply forward_jax_lemma; auto.
Qed.

(** ** Angles close to the colatitudes *)

Lemma placed gl s L nside : (s = HEALPIX -> 1 <= nside) -> nodes_ok s L (gl_nodes gl L) ->
  forall t, 0 <= t < rings s L nside -> colatitude (vat (gl_nodes gl L)) s L nside t (th_of gl s L nside t).
Proof.
  intros Hn Hg t Ht. assert (D : s = GL \/ s <> GL) by (destruct s; auto; right; discriminate). destruct D as [->|D].
  - cbn [colatitude th_of rings] in *. split; [apply acos_bound|]. apply cos_acos. apply Hg; auto; lia.
  - pose proof (theta_of_colatitude s L nside t D Hn Ht) as H. destruct s; try congruence; exact H.
Qed.

Lemma ring_angle_exact gl s L nside beta t : 1 <= L -> 0 <= t < rings s L nside ->
  Rabs (ring_angle s (rings s L nside) beta t - th_of gl s L nside t) = 0%R \/ ring_angle s (rings s L nside) beta t = beta t.
Proof.
  intros HL Ht. unfold ring_angle, pole_angle.
  assert (Z0 : forall a b : R, a = b -> Rabs (a - b) = 0%R) by (intros a b ->; rewrite Rminus_diag_eq by reflexivity; apply Rabs_R0).
  destruct s; auto; cbn [rings th_of theta_of] in *.
  - destruct (Z.eqb_spec t (L - 1)) as [->|]; [|auto]. left. apply Z0. unfold mw_theta. replace (2 * (L - 1) + 1) with (2 * L - 1) by lia.
    field. apply not_0_IZR. lia.
  - destruct (Z.eqb_spec t 0) as [->|]; [left; apply Z0; unfold mwss_theta; lra|].
    destruct (Z.eqb_spec t (L + 1 - 1)) as [->|]; [|auto]. left. apply Z0. unfold mwss_theta. replace (L + 1 - 1) with L by lia.
    field. apply not_0_IZR. lia.
Qed.

Lemma ring_angle_close gl s L nside : 1 <= L -> (s = HEALPIX -> 1 <= nside) -> nodes_ok s L (gl_nodes gl L) -> forall t, 0 <= t < rings s L nside ->
  close (fun d beta => angles_near d (vat (gl_nodes gl L)) s L nside beta) (fun beta => ring_angle s (rings s L nside) (vat beta) t) (th_of gl s L nside t).
Proof.
  intros HL Hn Hg t Ht d beta Hd [Hl H]. destruct (ring_angle_exact gl s L nside (vat beta) t HL Ht) as [E|E]; rewrite E; [lra|].
  apply H; auto. now apply placed.
Qed.
Lemma angles_mono nodes s L nside d d' beta : (0 < d' <= d)%R -> angles_near d' nodes s L nside beta -> angles_near d nodes s L nside beta.
Proof. intros Hd [H1 H2]. split; [exact H1|]. intros t x Ht Hx. specialize (H2 t x Ht Hx). lra. Qed.

(** the pairs ring, sample *)
Definition pairs (n : Z) (N : Z -> Z) : list (Z * Z) := flat_map (fun t => map (pair t) (zrange 0 (N t))) (zrange 0 n).
Lemma in_pairs n N t p : 0 <= t < n -> 0 <= p < N t -> In (t, p) (pairs n N).
Proof. intros Ht Hp. apply in_flat_map. exists t. split; [apply in_zrange; lia|]. apply in_map, in_zrange. lia. Qed.
Lemma pairs_in n N i : In i (pairs n N) -> 0 <= fst i < n /\ 0 <= snd i < N (fst i).
Proof.
  intros H. apply in_flat_map in H. destruct H as (t & Ht & H). apply in_map_iff in H. destruct H as (p & <- & Hp).
  apply in_zrange in Ht. apply in_zrange in Hp. cbn. lia.
Qed.

Lemma inverse_near_lemma gl flm L spin s nside reality Lo eps :
  2 <= L -> 0 <= Lo <= L - 2 -> Z.abs spin < L -> spin < 8 -> (s = HEALPIX -> 1 <= nside /\ 2 * nside <= L) ->
  nodes_ok s L (gl_nodes gl L) ->
  shape flm = [L; 2 * L - 1] -> spin_zero L spin flm -> (reality = true -> spin = 0) ->
  (reality = true -> forall el, 0 <= el < L -> is_real (stored L flm el 0)) -> (0 < eps)%R ->
  exists delta, (0 < delta)%R /\ forall th o beta method p, (s = HEALPIX -> o = Some nside) ->
    th L (scheme_name s) o = Ok beta -> angles_near delta (vat (gl_nodes gl L)) s L nside beta ->
    (forall t, 0 <= t < rings s L nside -> usable_ring s (rings s L nside) L Lo spin (vat beta) t) ->
    python_method method s -> method_precomps method th L spin s o false Lo beta p ->
    exists f, otf_inverse th flm L spin o (scheme_name s) method reality p Lo = Ok f /\
      samples_near eps (vat (gl_nodes gl L)) s L nside f (synth L spin (used_coefficients reality spin Lo (stored L flm))).
Proof.
  intros HL HLo Hs H8 Hn Hg Hf Hz Hre Hre0 He.
  assert (Hn1 : s = HEALPIX -> 1 <= nside) by (intros Q; apply (Hn Q)).
  set (c := used_coefficients reality spin Lo (stored L flm)).
  destruct (lim_all (fun d beta => angles_near d (vat (gl_nodes gl L)) s L nside beta) ltac:(intros; eapply angles_mono; eauto)
    (pairs (rings s L nside) (ring_size s L nside))
    (fun i beta => synth L spin c (ring_angle s (rings s L nside) (vat beta) (fst i)) (longitude s L nside (fst i) (snd i)))
    (fun i => synth L spin c (th_of gl s L nside (fst i)) (longitude s L nside (fst i) (snd i)))) with (eps := eps) as (delta & D & H); auto.
  { intros i Hi. apply pairs_in in Hi. apply lim_synth; [intros; eapply angles_mono; eauto|]. apply ring_angle_close; auto; lia. }
  exists delta. split; [exact D|]. intros th o beta method p Ho Eth Ha Hu Hm HP.
  destruct (otf_inverse_lemma th flm L spin s nside o reality Lo beta method p) as (f & E & S1 & S2); auto.
  { intros Q. destruct (Hn Q). auto. }
  { apply Ha. }
  exists f. split; [exact E|]. split; [exact S1|]. intros t p' x Ht Hp Hx. rewrite S2 by auto.
  rewrite (colat_unique gl s L nside t x) by auto. apply (H beta Ha (t, p')). now apply in_pairs.
Qed.

Lemma fscheme_eq s : fscheme s = forward_scheme s. Proof. reflexivity. Qed.
Lemma fwd_rings gl s L nside : gn (fgrid gl s L nside) = rings (forward_scheme s) (forward_band s L) nside.
Proof. destruct s; reflexivity. Qed.
Lemma fwd_gth gl s L nside t : gth (fgrid gl s L nside) t = th_of gl (forward_scheme s) (forward_band s L) nside t.
Proof. destruct s; reflexivity. Qed.
Lemma nodes_fwd gl s L : nodes_ok s L (gl_nodes gl L) -> nodes_ok (forward_scheme s) (forward_band s L) (gl_nodes gl (forward_band s L)).
Proof. intros H. destruct s; try exact H; intros Q; discriminate. Qed.

Definition coeffs (gl : gl_rule) (s : scheme) (L nside spin Lo : Z) (w : vec R) (v : Z -> Z -> C) (el m : Z) : C :=
  if Z.max Lo (Z.abs spin) <=? el then SphForwardTop.fsum (fgrid gl s L nside) spin w v el m else RtoC 0.

(** gl_nodes at the band-limit of the forward rings; they differ from those at L for mw and mwss only, which do not use them *)
Definition fnodes (gl : gl_rule) (s : scheme) (L : Z) : Z -> R := vat (gl_nodes gl L).
Lemma fwd_near_nodes gl s L nside d beta : forward_angles_near d (vat (gl_nodes gl L)) s L nside beta <->
  angles_near d (vat (gl_nodes gl (forward_band s L))) (forward_scheme s) (forward_band s L) nside beta.
Proof. destruct s; reflexivity. Qed.

Lemma forward_near_lemma gl f0 L spin s nside reality Lo w eps :
  2 <= L -> 0 <= Lo <= L - 2 -> Z.abs spin < L -> spin < 8 -> (s = HEALPIX -> 1 <= nside /\ 2 * nside <= L) ->
  nodes_ok s L (gl_nodes gl L) -> (s = GL -> vlen (gl_weights gl L) = L) ->
  shape f0 = map_shape s L nside -> (reality = true -> spin = 0) ->
  quad_weights_transform gl L (scheme_name (fscheme s)) 0 (Some nside) = Ok w -> (0 < eps)%R ->
  exists delta, (0 < delta)%R /\ forall th o beta method p iter f, (s = HEALPIX -> o = Some nside) ->
    (s = HEALPIX -> method <> "numpy" -> 2 <= nside) ->
    arrays_near delta f f0 -> (reality = true -> s = HEALPIX -> real_values gl s L nside spin f) ->
    fwd_angles th s L o = Ok beta -> forward_angles_near delta (vat (gl_nodes gl L)) s L nside beta ->
    (forall t, 0 <= t < vlen beta -> usable_ring (forward_scheme s) (vlen beta) L Lo spin (vat beta) t) ->
    python_method method s -> method_precomps method th L spin s o true Lo (inner_angles (forward_scheme s) beta) p ->
    (iter = None \/ exists k, iter = Some k /\ k <= 0) ->
    exists flm, otf_forward gl th f L spin o (scheme_name s) method reality p Lo iter = Ok flm /\
      coefficients_near eps L flm (coeffs gl s L nside spin Lo w (uvals reality s L nside spin f0)).
Proof.
  intros HL HLo Hs H8 Hn Hg Hgw Hf0 Hre Ew He.
  assert (Hn1 : s = HEALPIX -> 1 <= nside) by (intros Q; apply (Hn Q)).
  set (P := fun d (u : vec R * ndarray C) => angles_near d (vat (gl_nodes gl (forward_band s L))) (forward_scheme s) (forward_band s L) nside (fst u) /\ arrays_near d (snd u) f0).
  assert (mono : forall d d' u, (0 < d' <= d)%R -> P d' u -> P d u).
  { intros d d' u Hd [H1 [H2 H3]]. split; [eapply angles_mono; eauto|]. split; [exact H2|]. intros ix Hix. specialize (H3 ix Hix). lra. }
  set (n := rings (forward_scheme s) (forward_band s L) nside).
  set (gg := fun beta : vec R => ogrid s L nside (ring_angle (forward_scheme s) n (vat beta))).
  destruct (lim_all P mono (list_prod (zrange 0 L) (zrange (- L + 1) L))
    (fun i u => SphForwardTop.fsum (gg (fst u)) spin w (uvals reality s L nside spin (snd u)) (fst i) (snd i))
    (fun i => SphForwardTop.fsum (fgrid gl s L nside) spin w (uvals reality s L nside spin f0) (fst i) (snd i))) with (eps := eps) as (delta & D & H); auto.
  { intros i Hi. apply lim_fsum; [exact mono| | | | |].
    - intros u. apply ogrid_n.
    - intros u t. apply ogrid_N.
    - intros u t p. apply ogrid_ph.
    - intros t Ht. rewrite fwd_gth. intros d u Hd [H1 _]. unfold gg. rewrite ogrid_th. rewrite fwd_rings in Ht.
      apply (ring_angle_close gl (forward_scheme s) (forward_band s L) nside); auto.
      + destruct s; cbn [forward_band]; lia.
      + intros Q. apply Hn1. destruct s; try discriminate; reflexivity.
      + now apply nodes_fwd.
    - intros t p IG.
      assert (LV : lim P (fun u => fvals s L nside spin (snd u) t p) (fvals s L nside spin f0 t p)).
      { apply (lim_linear (map_shape s L nside) (fun f => fvals s L nside spin f t p)).
        - intros x y f1 f2 h Hh Hc. apply (fvals_lin gl); auto. lia.
        - exact Hf0.
        - intros d u Hd [_ H2]. exact H2. }
      unfold uvals. destruct reality; [apply lim_re|]; exact LV. }
  exists delta. split; [exact D|]. intros th o beta method p iter f Ho Hn2 Hf Hreal Eth Ha Hu Hm HP Hi.
  assert (Hb : vlen beta = gn (fgrid gl s L nside)) by (rewrite fwd_rings; apply Ha).
  assert (S : setting (scheme_name s) s L nside o) by (split; [apply denotes_name|]; split; [lia|]; intros Q; auto).
  assert (S' : setting (scheme_name s) s L nside (Some nside)) by (split; [apply denotes_name|]; split; [lia|]; intros Q; auto).
  destruct (otf_forward_lemma gl th f L spin s nside o reality Lo beta method p iter) as (w' & flm & Ew' & E & H1 & H2); auto.
  { intros Q. destruct (Hn Q). auto. }
  { rewrite (proj1 Hf). exact Hf0. }
  exists flm. split; [exact E|]. split; [exact H1|]. intros el m Hel Hmm. rewrite H2 by auto. unfold coeffs. destruct (_ <=? _).
  - assert (EW : w' = w).
    { pose proof (fname_same gl (scheme_name s) (scheme_name s) s L nside o (Some nside) S S') as Q.
      replace (fname (scheme_name s) s) with (scheme_name (fscheme s)) in Q by (destruct s; reflexivity). rewrite Ew, Ew' in Q. now injection Q. }
    rewrite EW. rewrite Hb, fwd_rings. apply (fun Q => H (beta, f) Q (el, m)); [|apply in_prod; apply in_zrange; lia].
    split; [apply fwd_near_nodes; exact Ha|exact Hf].
  - replace (RtoC 0 - RtoC 0)%C with (RtoC 0) by ring. now rewrite Cmod_0.
Qed.

(** for the samples of a signal the sums are its coefficients *)
Lemma coeffs_exact gl f0 L spin s nside reality Lo w c : 2 <= L -> 0 <= Lo -> s <> HEALPIX ->
  (s = GL -> gauss_legendre L (gl_nodes gl L) (gl_weights gl L)) ->
  quad_weights_transform gl L (scheme_name (fscheme s)) 0 (Some nside) = Ok w ->
  (reality = true -> hermitian L c /\ spin = 0) ->
  holds_samples (vat (gl_nodes gl L)) s L nside f0 (synth L spin c) ->
  forall el m, 0 <= el < L -> - L < m < L -> coeffs gl s L nside spin Lo w (uvals reality s L nside spin f0) el m = restricted Lo spin c el m.
Proof.
  intros HL HLo Hs HG Ew Hr HF el m Hel Hm.
  assert (S : setting (scheme_name s) s L nside (Some nside)) by (split; [apply denotes_name|]; split; [lia|]; intros Q; congruence).
  replace (scheme_name (fscheme s)) with (fname (scheme_name s) s) in Ew by (destruct s; reflexivity).
  destruct (weights_exact gl (scheme_name s) s L nside (Some nside) w S Hs HG Ew) as (n & th & GE & HW).
  assert (HN : nodes_ok s L (gl_nodes gl L)).
  { intros Q i Hi. destruct (HG Q) as (_ & _ & B & _). specialize (B i Hi). lra. }
  assert (V : forall t p, in_grid (fgrid gl s L nside) t p -> uvals reality s L nside spin f0 t p = synth L spin c (gth (fgrid gl s L nside) t) (gph (fgrid gl s L nside) t p)).
  { intros t p IG. unfold uvals. rewrite (fvals_signal_gen gl s L nside spin f0 (synth L spin c)); auto.
    - destruct reality; [|reflexivity]. destruct (Hr eq_refl) as [HH ->]. apply real_Re. now apply synth_real.
    - lia.
    - congruence.
    - intros _ _ t' Ht'. apply placed; auto. congruence.
    - split; [exact HF|intros _; apply synth_band_limited]. }
  unfold coeffs. rewrite GE. rewrite GE in V. apply fsum_round; auto; [lia|destruct s; cbn; congruence|].
  intros t p Ht Hp. rewrite V by (split; auto). reflexivity.
Qed.
