(** The reference forward transform on every sampling scheme. *)
From Coq Require Import Reals ZifyBool Lra.
From Coquelicot Require Import Complex.
From Verif Require Import Lib.Py Lib.PyFacts Lib.Vec Lib.VecFacts Lib.Sums Lib.Cplx Lib.Arr Lib.ArrFacts Lib.MatFacts
  Model.Index Model.Samples Model.Grids Model.FFT Model.HealpixFFT Model.Turok Model.Resampling Model.Quadrature Model.Spherical
  Spec.SamplesSpec Spec.WignerSpec Spec.SphereSpec Spec.GridSpec Spec.HealpixFFTSpec Spec.SphericalSpec Spec.QuadSpec
  Proofs.SamplesProofs Proofs.GridProofs Proofs.PixelProofs Proofs.TurokProofs Proofs.HealpixDFTProofs Proofs.SphGrid
  Proofs.ResamplingProofs Proofs.ResamplingFacts Proofs.ResamplingGen Proofs.QuadProofs
  Proofs.SphInverse Proofs.SphTop Proofs.SphForward.
Open Scope string_scope.
Open Scope Z_scope.

(** The grid of the sums: mw and mwss maps are resampled to 2L + 1 mwss rings. *)
Definition fscheme (s : scheme) : scheme := match s with MW => MWSS | _ => s end.
Definition fname (name : string) (s : scheme) : string := match s with MW | MWSS => "mwss" | _ => name end.
Definition fgrid (gl : gl_rule) (s : scheme) (L nside : Z) : grid :=
  match s with MW | MWSS => equi_grid MWSS L (2 * L + 1) (mwss_theta (2 * L)) | _ => the_grid gl s L nside end.
Definition fvals (s : scheme) (L nside spin : Z) (f : ndarray C) (t p : Z) : C :=
  match s with
  | MW => up_op L spin (ph_op L (th_op L spin (at2 f))) t p
  | MWSS => up_op L spin (at2 f) t p
  | _ => get f (sample_index s nside t p)
  end.
(** the quadrature sum *)
Definition fsum (g : grid) (spin : Z) (w : vec R) (v : Z -> Z -> C) (el m : Z) : C :=
  csum (zrange 0 (gn g)) (fun t =>
    (RtoC (vat w t * sgn spin * elfactor el * wigner_d el m (- spin) (gth g t)) *
     csum (zrange 0 (gN g t)) (fun p => cis (- (IZR m * gph g t p)) * v t p))%C).

Lemma fsum_ext g spin w v v' el m : (forall t p, in_grid g t p -> v t p = v' t p) -> fsum g spin w v el m = fsum g spin w v' el m.
Proof.
  intros H. apply cr_ext. intros t Ht. f_equal. apply cr_ext. intros p Hp. f_equal. apply H. now split.
Qed.

Lemma weights_ok gl name s L nside o : denotes name s -> 1 <= L -> (s = HEALPIX -> 1 <= nside /\ o = Some nside) ->
  (s = GL -> vlen (gl_weights gl L) = L) ->
  exists w, quad_weights_transform gl L (fname name s) 0 o = Ok w /\ vlen w = gn (fgrid gl s L nside).
Proof.
  intros Hd HL Hn Hg.
  assert (MS : exists w, quad_weights_transform gl L "mwss" 0 o = Ok w /\ vlen w = 2 * L + 1)
    by (destruct (transform_mwss_ok gl L 0 o HL) as (w & E & El & _); now exists w).
  destruct s; cbn [fname fgrid equi_grid gn]; auto; unfold quad_weights_transform; unfold denotes in Hd; rewrite Hd; rewrite the_grid_n; cbn [scheme_name rings].
  - destruct (dh_weights_ok gl L HL) as (w & E & El & _). now exists w.
  - destruct (gl_weights_ok gl L HL) as (w & E & El & _). exists w. split; [exact E|]. rewrite El. auto.
  - destruct (Hn eq_refl) as [H1 ->]. eexists. split; [reflexivity|]. reflexivity.
Qed.

Lemma prepare_ok gl name s f L spin nside o : denotes name s -> 1 <= L -> (s = HEALPIX -> 1 <= nside /\ o = Some nside) ->
  (s = GL -> vlen (gl_nodes gl L) = L /\ vlen (gl_weights gl L) = L) -> shape f = map_shape s L nside ->
  exists f' ths w, forward_prepare gl f L spin name o = Ok (f', fname name s, ths, w) /\
    grid_ok (fgrid gl s L nside) (fname name s) o L ths /\ shape f' = gsh (fgrid gl s L nside) /\
    vlen w = gn (fgrid gl s L nside) /\ quad_weights_transform gl L (fname name s) 0 o = Ok w /\
    (forall t p, in_grid (fgrid gl s L nside) t p -> get f' (ge (fgrid gl s L nside) t p) = fvals s L nside spin f t p).
Proof.
  intros Hd HL Hn Hg Hf. destruct (weights_ok gl name s L nside o Hd HL Hn ltac:(intros Q; apply (Hg Q))) as (w & Ew & Lw).
  unfold forward_prepare. pose proof Hd as Hd'. unfold denotes in Hd'. rewrite Hd'.
  assert (D : (s = MW \/ s = MWSS) \/ (s <> MW /\ s <> MWSS)) by (destruct s; auto; right; split; discriminate).
  destruct D as [D|[N1 N2]].
  - assert (U : exists f1 F, (if streq (scheme_name s) "mw" then mw_to_mwss numpy f L spin else Ok f) = Ok f1 /\
      is_mat f1 (L + 1) (2 * L) F /\ forall t p, fvals s L nside spin f t p = up_op L spin F t p).
    { destruct D as [-> | ->].
      - destruct (mw_op_ok L spin HL numpy f (at2 f)) as (g & E & Hg1); [split; auto|].
        exists g. eexists. split; [exact E|]. split; [exact Hg1|]. reflexivity.
      - exists f, (at2 f). split; [reflexivity|]. split; [split; auto|]. reflexivity. }
    destruct U as (f1 & F & -> & HF & HV). cbn [bind].
    replace (str_in (scheme_name s) ["mw"; "mwss"]) with true by (destruct D as [-> | ->]; reflexivity).
    destruct (up_op_ok L spin HL numpy f1 F HF) as (f2 & -> & H2). cbn [bind].
    destruct (thetas_top gl "mwss" MWSS (2 * L) 0 None eq_refl ltac:(lia) ltac:(discriminate) ltac:(discriminate)) as (ths & -> & Hl & Ht).
    cbn [bind fst snd]. replace (fname name s) with "mwss" in * by (destruct D as [-> | ->]; reflexivity). rewrite Ew. cbn [bind].
    exists f2, ths, w. split; [reflexivity|].
    assert (GE : fgrid gl s L nside = equi_grid MWSS L (2 * L + 1) (mwss_theta (2 * L))) by (destruct D as [-> | ->]; reflexivity).
    rewrite GE in *. split; [|split; [exact (proj1 H2)|split; [exact Lw|split; [reflexivity|]]]].
    + apply equi_grid_ok; auto; [reflexivity|discriminate].
    + intros t p [Hi Hp]. cbn [equi_grid ge gn gN] in *. rewrite HV. apply (proj2 H2); auto.
  - assert (E1 : streq (scheme_name s) "mw" = false) by (destruct s; try congruence; reflexivity).
    assert (E2 : str_in (scheme_name s) ["mw"; "mwss"] = false) by (destruct s; try congruence; reflexivity).
    rewrite E1, E2. cbn [bind].
    destruct (thetas_top gl name s L nside o Hd HL Hn ltac:(intros Q; apply (Hg Q))) as (ths & -> & Hl & Hth).
    cbn [bind fst snd]. assert (FN : fname name s = name) by (destruct s; try congruence; reflexivity). rewrite FN in *. rewrite Ew. cbn [bind].
    exists f, ths, w. split; [reflexivity|].
    assert (GE : fgrid gl s L nside = the_grid gl s L nside) by (destruct s; try congruence; reflexivity).
    rewrite GE in *. split; [|split; [now rewrite the_grid_sh|split; [exact Lw|split; [reflexivity|]]]].
    + apply the_grid_ok; auto.
    + intros t p IG. rewrite the_grid_e. destruct s; try congruence; reflexivity.
Qed.

Lemma forward_lemma gl name s f L spin method nside o reality Lo :
  denotes name s -> 1 <= L -> 0 <= Lo < L -> shape f = map_shape s L nside ->
  (s = HEALPIX -> 1 <= nside /\ o = Some nside) ->
  (s = GL -> vlen (gl_nodes gl L) = L /\ vlen (gl_weights gl L) = L) ->
  (forall t, 0 <= t < gn (fgrid gl s L nside) -> away_from_poles (gth (fgrid gl s L nside) t)) ->
  forward_allowed name method s L nside ->
  (reality = true -> spin = 0 -> forall t p, in_grid (fgrid gl s L nside) t p -> is_real (fvals s L nside spin f t p)) ->
  exists w flm, quad_weights_transform gl L (fname name s) 0 o = Ok w /\
    forward_ gl f L spin name method o reality Lo = Ok flm /\ shape flm = [L; 2 * L - 1] /\
    forall el m, 0 <= el < L -> - L < m < L -> get flm [el; m + L - 1] =
      if Z.max Lo (Z.abs spin) <=? el then fsum (fgrid gl s L nside) spin w (fvals s L nside spin f) el m else RtoC 0.
Proof.
  intros Hd HL HLo Hf Hn Hg Haw Hm Hr. unfold forward_.
  rewrite (f_shape_ok name s L nside o Hd ltac:(intros Q; apply (Hn Q))). cbn [bind].
  rewrite Hf, shape_is_refl.
  replace (0 <? L) with true by lia. replace ((0 <=? Lo) && (Lo <? L)) with true by lia. cbn [assert_ bind].
  set (re := if reality && negb (spin =? 0) then false else reality).
  assert (RE : re = reality && (spin =? 0)) by (unfold re; destruct reality, (spin =? 0); reflexivity).
  assert (RE0 : re = true -> spin = 0) by (rewrite RE; destruct reality; cbn; lia).
  assert (RE1 : re = true -> reality = true) by (rewrite RE; destruct reality; cbn; congruence).
  destruct (prepare_ok gl name s f L spin nside o Hd HL Hn Hg Hf) as (f' & ths & w & -> & G & Hsh & Lw & Ew & HV). cbn [bind].
  exists w. set (g := fgrid gl s L nside) in *.
  assert (HreF : re = true -> forall t p, in_grid g t p -> is_real (get f' (ge g t p))).
  { intros Q t p IG. rewrite HV by auto. apply Hr; auto. }
  assert (FIN : forall r, (exists flm, r = Ok flm /\ fwd_ok f' L spin Lo g w flm) -> exists flm,
    Ok w = Ok w /\ r = Ok flm /\ shape flm = [L; 2 * L - 1] /\
    forall el m, 0 <= el < L -> - L < m < L -> get flm [el; m + L - 1] =
      if Z.max Lo (Z.abs spin) <=? el then fsum g spin w (fvals s L nside spin f) el m else RtoC 0).
  { intros r (flm & E & H1 & H2). exists flm. split; [reflexivity|]. split; [exact E|]. split; [exact H1|]. intros el m Hel Hmm. rewrite H2 by auto.
    destruct (_ <=? _); [|reflexivity]. unfold U. rewrite <- (fsum_ext g spin w (fun t p => get f' (ge g t p))) by auto.
    reflexivity. }
  rewrite Ew. destruct Hm as [[-> | ->]|(Hm & Hname & Hfft)].
  - change (streq "direct" "direct") with true. cbv iota. apply FIN. apply forward_direct_ok; auto; lia.
  - change (streq "sov" "direct") with false. change (streq "sov" "sov") with true. cbv iota. apply FIN. apply forward_sov_ok; auto; lia.
  - assert (Hhp : fscheme s = HEALPIX -> o = Some nside /\ 1 <= nside /\ gn g = 4 * nside - 1).
    { intros Q. assert (Q' : s = HEALPIX) by (destruct s; cbn in Q; congruence). destruct (Hn Q') as [H1 H2]. subst g. rewrite Q'. auto. }
    assert (Hana : exists ftm, ring_analysis f' L (fname name s) o re = Ok ftm /\ fta_ok (fscheme s) L nside g f' re ftm).
    { assert (EQ : forall s0 th n, g = equi_grid s0 L n th -> s0 <> HEALPIX -> fscheme s = s0 -> fname name s = scheme_name s0 -> 0 < n ->
        exists ftm, ring_analysis f' L (fname name s) o re = Ok ftm /\ fta_ok (fscheme s) L nside g f' re ftm).
      { intros s0 th n Eg Ns Es En Hn0. rewrite Eg in *. rewrite Es, En. cbn [equi_grid gsh] in Hsh.
        destruct (equi_analysis_ok s0 L o n re f' th Ns HL Hn0 Hsh) as (ftm & E & HF).
        - intros Q t p Ht Hp. apply (HreF Q t p). split; auto.
        - exists ftm. split; [exact E|]. destruct HF as [F1 F2]. split; [exact F1|]. intros t m Ht Hmm Hq. rewrite <- F2 by auto.
          now replace (phase_of s0 nside t m) with (phase_of s0 0 t m) by (destruct s0; try reflexivity; congruence). }
      destruct s.
      - apply (EQ MWSS (mwss_theta (2 * L)) (2 * L + 1)); auto; try discriminate. lia.
      - apply (EQ MWSS (mwss_theta (2 * L)) (2 * L + 1)); auto; try discriminate. lia.
      - apply (EQ DH (th_of gl DH L nside) (rings DH L nside)); auto; try discriminate; cbn [fname rings]; try lia. destruct Hname as [Q|[Q|Q]]; [discriminate Q|discriminate Q|exact Q].
      - apply (EQ GL (th_of gl GL L nside) (rings GL L nside)); auto; try discriminate; cbn [fname rings]; try lia. destruct Hname as [Q|[Q|Q]]; [discriminate Q|discriminate Q|exact Q].
      - destruct (Hn eq_refl) as [H1 ->]. assert (En : name = "healpix") by (destruct Hname as [Q|[Q|Q]]; [discriminate Q|discriminate Q|exact Q]). cbn [fname fscheme]. rewrite En.
        apply hp_analysis_ok; auto; try exact Hsh. intros Q i Hi.
        destruct (go_cov _ _ _ _ _ G [i]) as (t & p & IG & E); [cbn [g fgrid the_grid hp_grid gsh in_shape]; lia|]. rewrite E. now apply HreF. }
    assert (Hnm : fname name s = scheme_name (fscheme s)).
    { destruct s; try reflexivity; (destruct Hname as [Q|[Q|Q]]; [discriminate Q|discriminate Q|exact Q]). }
    destruct Hm as [-> | ->].
    + change (streq "sov_fft" "direct") with false. change (streq "sov_fft" "sov") with false. change (streq "sov_fft" "sov_fft") with true. cbv iota.
      apply FIN. apply (forward_sov_fft_ok f' L spin (fname name s) o re Lo g ths w) with (s := fscheme s) (ns := nside); auto; lia.
    + change (streq "sov_fft_vectorized" "direct") with false. change (streq "sov_fft_vectorized" "sov") with false.
      change (streq "sov_fft_vectorized" "sov_fft") with false. change (streq "sov_fft_vectorized" "sov_fft_vectorized") with true. cbv iota.
      apply FIN. apply (forward_vectorized_ok f' L spin (fname name s) o re Lo g ths w) with (s := fscheme s) (ns := nside); auto; lia.
Qed.
