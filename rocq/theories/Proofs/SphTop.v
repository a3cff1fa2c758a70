(** The reference inverse transform on every sampling scheme. *)
From Coq Require Import Reals ZifyBool Lra.
From Coquelicot Require Import Complex.
From Verif Require Import Lib.Py Lib.PyFacts Lib.Vec Lib.VecFacts Lib.Sums Lib.Cplx Lib.Arr Lib.ArrFacts Lib.MatFacts
  Model.Index Model.Samples Model.Grids Model.FFT Model.HealpixFFT Model.Turok Model.Spherical
  Spec.SamplesSpec Spec.WignerSpec Spec.SphereSpec Spec.GridSpec Spec.HealpixFFTSpec Spec.SphericalSpec
  Proofs.SamplesProofs Proofs.GridProofs Proofs.PixelProofs Proofs.TurokProofs Proofs.HealpixDFTProofs Proofs.SphGrid Proofs.SphInverse.
Open Scope string_scope.
Open Scope Z_scope.

(** the colatitude of ring t *)
Definition th_of (gl : gl_rule) (s : scheme) (L nside t : Z) : R :=
  match s with GL => acos (vat (gl_nodes gl L) (L - 1 - t)) | _ => theta_of s L nside t end.

Lemma colat_unique gl s L nside t x : (s = HEALPIX -> 1 <= nside) -> 0 <= t < rings s L nside ->
  colatitude (vat (gl_nodes gl L)) s L nside t x -> x = th_of gl s L nside t.
Proof.
  intros Hn Ht H. destruct s; cbn [colatitude is_colatitude th_of theta_of] in *; auto.
  - destruct H as [B <-]. symmetry. now apply acos_cos.
  - destruct H as [B <-]. symmetry. apply acos_cos. lra.
Qed.

Lemma thetas_nside gl L name s n o : denotes name s -> s <> HEALPIX -> thetas gl (Some L) name o = thetas gl (Some L) name (Some n).
Proof.
  intros Hd Hs. unfold thetas, ntheta, t2theta, denotes in *. rewrite Hd. destruct s; try congruence; reflexivity.
Qed.

Lemma thetas_top gl name s L nside o : denotes name s -> 1 <= L -> (s = HEALPIX -> 1 <= nside /\ o = Some nside) ->
  (s = GL -> vlen (gl_nodes gl L) = L) ->
  exists v, thetas gl (Some L) name o = Ok v /\ vlen v = rings s L nside /\
    forall t, 0 <= t < rings s L nside -> vat v t = th_of gl s L nside t.
Proof.
  intros Hd HL Hn Hg. assert (D : {s = GL} + {s <> GL}) by (destruct s; auto; right; discriminate). destruct D as [->|NG].
  - unfold thetas. unfold denotes in Hd. rewrite Hd. cbn. eexists. split; [reflexivity|]. specialize (Hg eq_refl).
    split; [exact Hg|]. intros t Ht. cbn. now rewrite Hg.
  - assert (E : thetas gl (Some L) name o = thetas gl (Some L) name (Some nside)).
    { assert (D : {s = HEALPIX} + {s <> HEALPIX}) by (destruct s; auto; right; discriminate). destruct D as [Q|N].
      - destruct (Hn Q) as [_ ->]. reflexivity.
      - apply (thetas_nside gl L name s); auto. }
    rewrite E. destruct (thetas_ok gl name s L nside Hd NG) as (v & E1 & E2 & E3); auto; [intros Q; apply (Hn Q)|].
    exists v. split; [exact E1|]. split; [exact E2|]. intros t Ht. rewrite E3 by auto. destruct s; try reflexivity. congruence.
Qed.

Definition the_grid (gl : gl_rule) (s : scheme) (L nside : Z) : grid :=
  match s with HEALPIX => hp_grid nside (th_of gl s L nside) | _ => equi_grid s L (rings s L nside) (th_of gl s L nside) end.

Lemma the_grid_ok gl name s L nside o ths : denotes name s -> 1 <= L -> (s = HEALPIX -> 1 <= nside /\ o = Some nside) ->
  vlen ths = rings s L nside -> (forall t, 0 <= t < rings s L nside -> vat ths t = th_of gl s L nside t) ->
  grid_ok (the_grid gl s L nside) name o L ths.
Proof.
  intros Hd HL Hn Hl Ht. destruct s.
  1-4: apply equi_grid_ok; auto; discriminate.
  destruct (Hn eq_refl) as [H1 ->]. apply hp_grid_ok; auto. intros t Ht'.
  cbn [th_of theta_of]. exact (proj2 (acos_height nside t H1 Ht')).
Qed.

Lemma the_grid_n gl s L nside : gn (the_grid gl s L nside) = rings s L nside. Proof. now destruct s. Qed.
Lemma the_grid_th gl s L nside t : gth (the_grid gl s L nside) t = th_of gl s L nside t. Proof. now destruct s. Qed.
Lemma the_grid_N gl s L nside t : gN (the_grid gl s L nside) t = ring_size s L nside t. Proof. now destruct s. Qed.
Lemma the_grid_ph gl s L nside t p : gph (the_grid gl s L nside) t p = longitude s L nside t p. Proof. now destruct s. Qed.
Lemma the_grid_e gl s L nside t p : ge (the_grid gl s L nside) t p = sample_index s nside t p. Proof. now destruct s. Qed.
Lemma the_grid_sh gl s L nside : gsh (the_grid gl s L nside) = map_shape s L nside. Proof. now destruct s. Qed.

Lemma f_shape_ok name s L nside o : denotes name s -> (s = HEALPIX -> o = Some nside) ->
  f_shape (Some L) name o = Ok (map_shape s L nside).
Proof.
  intros Hd Ho. unfold f_shape, ntheta, nphi_equiang, denotes in *. rewrite Hd.
  destruct s; try reflexivity. rewrite (Ho eq_refl). cbn. now rewrite Z.mul_1_r.
Qed.

Lemma ftm_shape_ok name s L nside o : denotes name s -> (s = HEALPIX -> o = Some nside) ->
  ftm_shape (Some L) name o = Ok [rings s L nside; orders s L].
Proof.
  intros Hd Ho. unfold ftm_shape, ntheta, denotes in *. rewrite Hd. destruct s; try reflexivity. now rewrite (Ho eq_refl).
Qed.

(** the sum computed on the grid is the synthesis of the signal *)
Lemma V_synth gl flm L spin reality Lo s nside t p : 0 <= Lo -> (reality = true -> spin = 0) ->
  V flm L spin reality Lo (the_grid gl s L nside) t p
  = synth L spin (used_coefficients reality spin Lo (stored L flm)) (th_of gl s L nside t) (longitude s L nside t p).
Proof.
  intros HLo Hr. unfold V, synth, el_range.
  transitivity (csum (zrange (Z.max Lo (Z.abs spin)) L) (fun l => csum (zrange (- l) (l + 1)) (fun m =>
    (used_coefficients reality spin Lo (stored L flm) l m * sYlm spin l m (th_of gl s L nside t) (longitude s L nside t p))%C))).
  - apply cr_ext. intros el Hel. rewrite (cr_shrink _ _ (- el) (el + 1)); try lia.
    + apply cr_ext. intros m Hm. unfold Ac, sYlm, used_coefficients, above. rewrite the_grid_th, the_grid_ph.
      replace (el <? Lo) with false by lia.
      assert (EC : coef flm L reality el m = (if reality && (spin =? 0) then real_extension (stored L flm) else stored L flm) el m).
      { unfold coef, real_extension. destruct reality; [|reflexivity]. rewrite (Hr eq_refl). reflexivity. }
      rewrite EC. unfold elfactor. ring.
    + intros m Hm Ho. unfold Ac. rewrite wig_out by lia. rewrite Rmult_0_r. ring.
  - destruct (Z_le_dec L (Z.max Lo (Z.abs spin))) as [B|B].
    + rewrite cr_nil by lia. symmetry. apply cr_0. intros l Hl. apply cr_0. intros m Hm. unfold used_coefficients, above.
      replace (l <? Lo) with true by lia. ring.
    + symmetry. apply cr_shrink; try lia. intros l Hl Ho. apply cr_0. intros m Hm. unfold used_coefficients, above.
      replace (l <? Lo) with true by lia. ring.
Qed.

Lemma shape_is_refl sh : shape_is sh sh = true.
Proof. unfold shape_is. now destruct (list_eq_dec _ sh sh). Qed.

Lemma inverse_lemma gl name s flm L spin method nside o reality Lo :
  denotes name s -> 1 <= L -> 0 <= Lo < L -> shape flm = [L; 2 * L - 1] ->
  (s = HEALPIX -> 1 <= nside /\ o = Some nside) -> (s = GL -> vlen (gl_nodes gl L) = L) ->
  rings_away (vat (gl_nodes gl L)) s L nside ->
  method_allowed name method s L nside spin reality flm ->
  exists f, inverse_ gl flm L spin name method o reality Lo = Ok f /\
    on_grid (the_grid gl s L nside) f (fun t p =>
      synth L spin (used_coefficients reality spin Lo (stored L flm)) (th_of gl s L nside t) (longitude s L nside t p)).
Proof.
  intros Hd HL HLo Hf Hn Hg Haw Hm. unfold inverse_.
  rewrite Hf. change (flm_shape L) with [L; 2 * L - 1]. rewrite shape_is_refl.
  replace (0 <? L) with true by lia. replace ((0 <=? Lo) && (Lo <? L)) with true by lia. cbn [assert_ bind].
  destruct (thetas_top gl name s L nside o Hd HL Hn Hg) as (ths & -> & Hl & Hth). cbn [bind].
  set (re := if reality && negb (spin =? 0) then false else reality).
  assert (RE : re = reality && (spin =? 0)) by (unfold re; destruct reality, (spin =? 0); reflexivity).
  assert (RE0 : re = true -> spin = 0) by (rewrite RE; destruct reality; cbn; lia).
  assert (UC : used_coefficients re spin Lo (stored L flm) = used_coefficients reality spin Lo (stored L flm)).
  { unfold used_coefficients. rewrite RE. destruct reality, (spin =? 0); reflexivity. }
  assert (G := the_grid_ok gl name s L nside o ths Hd HL Hn Hl Hth).
  assert (Hsh : f_shape (Some L) name o = Ok (gsh (the_grid gl s L nside)))
    by (rewrite the_grid_sh; apply f_shape_ok; auto; intros Q; apply (Hn Q)).
  assert (Hft : ftm_shape (Some L) name o = Ok [gn (the_grid gl s L nside); orders s L])
    by (rewrite the_grid_n; apply ftm_shape_ok; auto; intros Q; apply (Hn Q)).
  assert (Hang : forall t, 0 <= t < gn (the_grid gl s L nside) -> turok_angle (gth (the_grid gl s L nside) t)).
  { intros t Ht. rewrite the_grid_n in Ht. rewrite the_grid_th. destruct (Haw t Ht) as (x & Hx & Hx').
    rewrite <- (colat_unique gl s L nside t x); auto. intros Q. apply (Hn Q). }
  assert (FIN : forall r, (exists f, r = Ok f /\ on_grid (the_grid gl s L nside) f (V flm L spin re Lo (the_grid gl s L nside))) ->
    exists f, r = Ok f /\ on_grid (the_grid gl s L nside) f (fun t p =>
      synth L spin (used_coefficients reality spin Lo (stored L flm)) (th_of gl s L nside t) (longitude s L nside t p))).
  { intros r (f & E & H). exists f. split; [exact E|]. apply (on_grid_ext _ _ _ _ H). intros t p _.
    rewrite V_synth by (auto; lia). now rewrite UC. }
  destruct Hm as [[-> | ->]|(Hm & Hname & Hfft & Hreal)].
  - change (streq "direct" "direct") with true. cbv iota. apply FIN. apply inverse_direct_ok; auto; lia.
  - change (streq "sov" "direct") with false. change (streq "sov" "sov") with true. cbv iota. apply FIN. apply inverse_sov_ok; auto; lia.
  - assert (Hhp : s = HEALPIX -> o = Some nside /\ 1 <= nside /\ gn (the_grid gl s L nside) = 4 * nside - 1 /\ 2 * nside <= L).
    { intros Q. destruct (Hn Q) as [H1 H2]. rewrite the_grid_n, Q. auto. }
    assert (Hre0 : re = true -> forall el, 0 <= el < L -> is_real (X flm L el 0)).
    { intros Q. apply Hreal; [|auto]. rewrite RE in Q. now destruct reality. }
    assert (Hsyn : forall ftm A, ftm_ok s L nside (gn (the_grid gl s L nside)) re A ftm ->
       (re = true -> forall t m, 0 <= t < gn (the_grid gl s L nside) -> 0 <= m < L -> A t (- m) = Cconj (A t m)) ->
       exists f, ring_synthesis ftm L name o re = Ok f /\ on_grid (the_grid gl s L nside) f (order_sum (the_grid gl s L nside) L A)).
    { intros ftm A HA HR. rewrite the_grid_n in HA, HR. rewrite Hname. destruct s.
      5:{ destruct (Hhp eq_refl) as (-> & H1 & _ & H2). apply hp_synthesis_ok; auto. }
      all: apply equi_synthesis_ok; auto; try discriminate; cbn [rings]; lia. }
    destruct Hm as [-> | ->].
    + change (streq "sov_fft" "direct") with false. change (streq "sov_fft" "sov") with false. change (streq "sov_fft" "sov_fft") with true. cbv iota.
      apply FIN. apply (inverse_sov_fft_ok flm L spin name o re Lo _ ths) with (s := s) (ns := nside); auto; lia.
    + change (streq "sov_fft_vectorized" "direct") with false. change (streq "sov_fft_vectorized" "sov") with false.
      change (streq "sov_fft_vectorized" "sov_fft") with false. change (streq "sov_fft_vectorized" "sov_fft_vectorized") with true. cbv iota.
      apply FIN. apply (inverse_vectorized_ok flm L spin name o re Lo _ ths) with (s := s) (ns := nside); auto; lia.
Qed.
