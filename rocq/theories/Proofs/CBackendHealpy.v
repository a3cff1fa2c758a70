(** The front end of healpy: indexing, synthesis, refinement. *)
From Coq Require Import Reals Lra Lia.
From Coquelicot Require Import Complex.
From Verif Require Import Lib.Py Lib.PyFacts Lib.Vec Lib.Sums Lib.Cplx Lib.Arr Lib.MatFacts Model.Index Model.Samples Model.Grids Model.Turok
  Model.Quadrature Model.Spherical Model.Refine Model.OTF Model.OTFSpherical Model.Wigner Model.CBackend Spec.IndexSpec Spec.WignerSpec Spec.SamplesSpec
  Spec.SphereSpec Spec.GridSpec Spec.QuadSpec Spec.HealpixFFTSpec Spec.SphericalSpec Spec.RefineSpec Spec.CBackendSpec
  Proofs.IndexProofs Proofs.IndexFastProofs Proofs.SamplesProofs Proofs.GridProofs Proofs.SphGrid Proofs.SphTop Proofs.SphForward Proofs.SphForwardTop
  Proofs.SphFacts Proofs.PrecomputeSph Proofs.CudaKernelProofs Proofs.RefineProofs Proofs.RefineNear Proofs.RefineSph.
From Coq Require Import List.
Import ListNotations.
Open Scope string_scope.
Open Scope Z_scope.

(** ** The list of the coefficients *)
Lemma hp_ix L l m : m * (2 * L - 1 - m) / 2 + l = hp_getidx L l m. Proof. reflexivity. Qed.
Lemma to_hp L flm : 1 <= L -> shape flm = [L; 2 * L - 1] -> hp_listed L (flm_2d_to_hp_fast (RtoC 0) flm L) (stored L flm).
Proof.
  intros HL Sf. destruct (flm_2d_to_hp_fast_eq (RtoC 0) flm L HL Sf) as (g & E1 & S1 & G1).
  destruct (flm_2d_to_hp_spec (RtoC 0) flm L HL Sf) as (g' & E2 & S2 & G2). rewrite E1 in E2. injection E2 as <-.
  split; [congruence|]. intros l m Hm Hl. rewrite hp_ix. assert (V : valid_lm_pos L l m) by (unfold valid_lm_pos; lia).
  rewrite G1, G2 by (auto; rewrite S1, S2; pose proof (hp_getidx_range L l m V); cbn [in_shape]; lia). unfold stored. now rewrite Z.add_comm with (n := m), Z.add_sub_swap.
Qed.
Lemma from_hp L x c : 1 <= L -> hp_listed L x c ->
  exists o, flm_hp_to_2d_fast (RtoC 0) Copp Cconj x L = Ok o /\ holds_coefficients L o (restricted 0 0 (real_extension c)).
Proof.
  intros HL [Sx Hx]. destruct (flm_hp_to_2d_fast_eq (RtoC 0) Copp Cconj x L HL Sx) as (g & o & E1 & E2 & S1 & G1).
  destruct (flm_hp_to_2d_spec (RtoC 0) Copp Cconj x L HL Sx) as (g' & E3 & S3 & G3 & RS & TR). rewrite E1 in E3. injection E3 as <-.
  exists o. split; [exact E2|]. split; [rewrite S1; exact S3|]. intros l m Hl Hm. unfold stored.
  assert (S4 : shape g = [L; 2 * L - 1]) by exact S3.
  rewrite G1 by (rewrite S1, S4; cbn [in_shape]; lia). unfold restricted. replace (Z.max 0 (Z.abs 0)) with 0 by reflexivity.
  replace (0 <=? l) with true by lia. cbn [andb]. destruct (Z.leb_spec (Z.abs m) l) as [A|A].
  - unfold real_extension. destruct (Z.ltb_spec m 0).
    + specialize (RS l (- m) Hl ltac:(lia)). replace (m + L - 1) with (L - 1 - - m) by lia. rewrite RS.
      rewrite G3 by (unfold valid_lm_pos; lia). rewrite <- hp_ix, Hx by lia.
      rewrite Z.even_opp. unfold sgn. destruct (Z.even m); [|]; unfold Cconj, RtoC, Cmult, Copp; cbn; f_equal; ring.
    + replace (m + L - 1) with (L - 1 + m) by lia. rewrite G3 by (unfold valid_lm_pos; lia). rewrite <- hp_ix. apply Hx; lia.
  - replace (m + L - 1) with (L - 1 + m) by lia. apply TR; auto. unfold valid_lm. lia.
Qed.

(** sums over the list and over the pixels *)
Lemma list_sum L g : 1 <= L -> csum (zrange 0 (L * (L + 1) / 2)) g = csum (zrange 0 L) (fun m => csum (zrange m L) (fun l => g (hp_getidx L l m))).
Proof.
  intros HL. assert (P : forall M, 0 <= M -> M <= L -> csum (zrange 0 (M * (2 * L + 1 - M) / 2)) g
    = csum (zrange 0 M) (fun m => csum (zrange m L) (fun l => g (hp_getidx L l m)))).
  - apply (natlike_ind (fun M => M <= L -> csum (zrange 0 (M * (2 * L + 1 - M) / 2)) g
      = csum (zrange 0 M) (fun m => csum (zrange m L) (fun l => g (hp_getidx L l m))))).
    + intros _. rewrite !cr_nil by (try apply Z.le_refl; reflexivity). reflexivity.
    + intros M HM IH HM'. rewrite <- Z.add_1_r in *. rewrite cr_snoc by lia. rewrite <- IH by lia.
      assert (E1 : exists q, M * (2 * L + 1 - M) = 2 * q).
      { destruct (Z.Even_or_Odd M) as [[q ->]|[q ->]]; eexists; [rewrite <- Z.mul_assoc; reflexivity|].
        replace ((2 * q + 1) * (2 * L + 1 - (2 * q + 1))) with (2 * ((2 * q + 1) * (L - q))) by ring. reflexivity. }
      destruct E1 as [q Eq]. assert (E2 : (M + 1) * (2 * L + 1 - (M + 1)) = 2 * (q + (L - M))) by nia.
      rewrite Eq, E2, !(Z.mul_comm 2), !Z.div_mul by lia.
      rewrite (cr_split 0 q (q + (L - M))) by nia. f_equal.
      pose proof (cr_shift M L (q - M) g) as SH. replace (M + (q - M)) with q in SH by ring. replace (L + (q - M)) with (q + (L - M)) in SH by ring.
      rewrite <- SH. apply cr_ext. intros l Hl. f_equal. unfold hp_getidx. replace (M * (2 * L - 1 - M)) with ((q - M) * 2) by nia. rewrite Z.div_mul by lia. ring.
  - specialize (P L ltac:(lia) ltac:(lia)). replace (2 * L + 1 - L) with (L + 1) in P by ring. exact P.
Qed.
Lemma pixel_sum nside g : 1 <= nside -> csum (zrange 0 (12 * (nside * nside))) g
  = over_pixels nside (fun t p => g (ring_start (ring_length nside) t + p)).
Proof.
  intros Hn. rewrite <- (ring_start_total nside Hn). unfold over_pixels.
  assert (P : forall T, 0 <= T -> T <= 4 * nside - 1 -> 0 <= ring_start (ring_length nside) T /\ csum (zrange 0 (ring_start (ring_length nside) T)) g
    = csum (zrange 0 T) (fun t => csum (zrange 0 (ring_length nside t)) (fun p => g (ring_start (ring_length nside) t + p)))).
  - apply (natlike_ind (fun T => T <= 4 * nside - 1 -> 0 <= ring_start (ring_length nside) T /\ csum (zrange 0 (ring_start (ring_length nside) T)) g
      = csum (zrange 0 T) (fun t => csum (zrange 0 (ring_length nside t)) (fun p => g (ring_start (ring_length nside) t + p))))).
    + intros _. rewrite ring_start_0. rewrite !cr_nil by lia. split; [lia|reflexivity].
    + intros T HT IH HT'. rewrite <- Z.add_1_r in *. destruct IH as [I0 IH]; [lia|]. rewrite ring_start_succ by lia. rewrite cr_snoc by lia. rewrite <- IH.
      assert (0 <= ring_length nside T) by (unfold ring_length; lia). split; [lia|].
      rewrite (cr_split 0 (ring_start (ring_length nside) T)) by lia. f_equal.
      pose proof (cr_shift 0 (ring_length nside T) (ring_start (ring_length nside) T) g) as SH. rewrite Z.add_0_l in SH.
      rewrite (Z.add_comm (ring_start _ T)), <- SH. apply cr_ext. intros p Hp. now rewrite Z.add_comm.
  - apply P; lia.
Qed.

(** ** Refinement of related functions *)
Section Rel.
  Variables (Rf Rc : ndarray C -> ndarray C -> Prop) (F B F' B' : ndarray C -> result (ndarray C)).
  Hypothesis (HF : forall a a', Rf a a' -> exists b b', F a = Ok b /\ F' a' = Ok b' /\ Rc b b')
    (HB : forall a a', Rc a a' -> exists b b', B a = Ok b /\ B' a' = Ok b' /\ Rf b b')
    (Hsub : forall a a' b b', Rf a a' -> Rf b b' -> exists c c', asub a b = Ok c /\ asub a' b' = Ok c' /\ Rf c c')
    (Hadd : forall a a' b b', Rc a a' -> Rc b b' -> exists c c', aadd a b = Ok c /\ aadd a' b' = Ok c' /\ Rc c c').
  Lemma refine_related f f' n : Rf f f' -> exists y y', refine f n F B = Ok y /\ refine f' n F' B' = Ok y' /\ Rc y y'.
  Proof.
    intros Hf. destruct (Z.le_gt_cases n 0) as [N|N]; [rewrite !refine_0 by auto; now apply HF|]. apply Z.lt_le_incl in N. revert n N.
    apply (natlike_ind (fun n => exists y y', refine f n F B = Ok y /\ refine f' n F' B' = Ok y' /\ Rc y y')).
    - rewrite !refine_0 by lia. now apply HF.
    - intros n Hn (y & y' & E & E' & Hy). rewrite <- Z.add_1_r, !refine_succ by auto. rewrite E, E'. cbn [bind]. unfold refine_step.
      destruct (HB _ _ Hy) as (b & b' & -> & -> & Hb). cbn [bind]. destruct (Hsub _ _ _ _ Hf Hb) as (e & e' & -> & -> & He). cbn [bind].
      destruct (HF _ _ He) as (d & d' & -> & -> & Hd). cbn [bind]. now apply Hadd.
  Qed.
End Rel.

(** ** The transforms *)
Lemma hp_colat nodes L nside t : 1 <= nside -> 0 <= t < 4 * nside - 1 -> colatitude nodes HEALPIX L nside t (theta_of HEALPIX L nside t).
Proof. intros Hn Ht. cbn [colatitude]. apply theta_of_colatitude; auto; discriminate. Qed.
Lemma real_signal_herm L c : hermitian L (real_signal c).
Proof.
  intros l m Hl Hm. unfold real_signal, real_extension.
  destruct (Z.eqb_spec m 0) as [->|N]; [cbn; unfold Cconj, RtoC, Cmult, sgn; cbn; f_equal; ring|].
  destruct (Z.eqb_spec (- m) 0), (Z.ltb_spec (- m) 0), (Z.ltb_spec m 0); try lia.
  - now rewrite Z.opp_involutive, sgn_opp.
  - rewrite Cconj_mult, Cconj_conj, Cconj_R. rewrite Cmult_assoc, <- RtoC_mult, sgn_sq. ring.
Qed.
Lemma real_signal_id L c l m : hermitian L c -> 0 <= l < L -> - l <= m <= l -> real_signal c l m = c l m.
Proof.
  intros H Hl Hm. unfold real_signal. destruct (Z.eqb_spec m 0) as [->|N]; [apply real_Re; now apply (herm_real L)|now apply (real_ext_id L)].
Qed.

Section H.
  Variables (nodes : Z -> R) (L nside : Z) (h : healpy).
  Hypothesis (HL : 1 <= L) (Hn : 1 <= nside) (K : healpy_contract nodes L nside h).
  Notation th := (theta_of HEALPIX L nside).
  Notation ph := (longitude HEALPIX L nside).
  Notation px := (fun t p => [ring_start (ring_length nside) t + p]).

  Definition pixel_mean (f : ndarray C) (l m : Z) : C :=
    (RtoC (4 * PI / IZR (12 * (nside * nside))) * over_pixels nside (fun t p => get f (px t p) * Cconj (sYlm 0 l m (th t) (ph t p))))%C.
  Lemma map2alm_ok f : shape f = [12 * (nside * nside)] -> all_real f ->
    exists x, healpy_map2alm (Some h) f L nside = Ok x /\ hp_listed L x (pixel_mean f).
  Proof. intros Sf Rf. apply (map2alm_integrates nodes L nside h K f th Sf Rf). intros t Ht. now apply hp_colat. Qed.
  Lemma alm2map_ok x c : hp_listed L x c -> exists f, healpy_alm2map (Some h) x L nside = Ok f /\ all_real f /\
    shape f = [12 * (nside * nside)] /\ (forall t p, 0 <= t < 4 * nside - 1 -> 0 <= p < ring_length nside t -> get f (px t p) = synth L 0 (real_signal c) (th t) (ph t p)) /\
    holds_samples nodes HEALPIX L nside f (synth L 0 (real_signal c)).
  Proof.
    intros Hx. destruct (alm2map_synthesises nodes L nside h K x c Hx) as (f & E & R & S & G). exists f. split; [exact E|]. split; [exact R|]. split; [exact S|].
    split; [|split; auto]. intros t p Ht Hp. apply G; auto. now apply hp_colat.
  Qed.

  Lemma inverse_ok flm : shape flm = [L; 2 * L - 1] -> exists f, healpy_inverse (Some h) flm L nside = Ok f /\ all_real f /\
    holds_samples nodes HEALPIX L nside f (synth L 0 (real_signal (stored L flm))).
  Proof.
    intros Sf. destruct (alm2map_ok _ _ (to_hp L flm HL Sf)) as (f & E & R & _ & _ & G). exists f. split; [exact E|]. split; auto.
  Qed.

  (** ** Agreement with the reference transforms *)
  Section Ref.
    Variable gl : gl_rule.
    Hypothesis (H2 : 2 * nside <= L) (Ha : rings_away nodes HEALPIX L nside).
    Notation F' := (fun f => forward_ gl f L 0 "healpix" "sov_fft_vectorized" (Some nside) true 0).
    Notation B' := (fun flm => inverse_ gl flm L 0 "healpix" "sov_fft_vectorized" (Some nside) true 0).
    Notation F := (fun f => healpy_map2alm (Some h) f L nside).
    Notation B := (fun flm => healpy_alm2map (Some h) flm L nside).
    Definition same_map (a b : ndarray C) : Prop := arr_eq a b /\ shape a = [12 * (nside * nside)] /\ all_real a.
    Definition same_coeffs (x y : ndarray C) : Prop := hp_listed L x (stored L y) /\ shape y = [L; 2 * L - 1] /\ hermitian L (stored L y) /\
      forall l m, 0 <= l < L -> - L < m < L -> l < Z.abs m -> stored L y l m = RtoC 0.
    Let St : setting "healpix" HEALPIX L nside (Some nside).
    Proof. split; [reflexivity|]. split; auto. Qed.

    Lemma fsum_mean f w l m : quad_weights_transform gl L "healpix" 0 (Some nside) = Ok w ->
      fsum (fgrid gl HEALPIX L nside) 0 w (fvals HEALPIX L nside 0 f) l m = pixel_mean f l m.
    Proof.
      intros Ew. change (Ok (vconst (4 * nside - 1) (4 * PI / IZR (12 * nside ^ 2))%R) = Ok w) in Ew. apply (f_equal (fun r => match r with Ok x => x | Err _ => w end)) in Ew. cbv beta iota in Ew. rewrite <- Ew. unfold fsum, pixel_mean, over_pixels.
      rewrite <- cs_scal_l. apply cr_ext. intros t Ht. rewrite <- !cs_scal_l. apply cr_ext. intros p Hp.
      cbn [vconst vat fgrid the_grid hp_grid gth gph th_of fvals sample_index longitude].
      unfold sYlm. rewrite Cconj_mult, Cconj_R, cis_conj. replace (nside ^ 2) with (nside * nside) by ring. unfold elfactor.
      rewrite !RtoC_mult. ring.
    Qed.
    Lemma F_same a a' : same_map a a' -> exists b b', F a = Ok b /\ F' a' = Ok b' /\ same_coeffs b b'.
    Proof.
      intros ((Sa & Ga) & S1 & R1). destruct (map2alm_ok a S1 R1) as (x & Ex & Hx).
      assert (R2 : forall t p, 0 <= t < 4 * nside - 1 -> 0 <= p < ring_length nside t -> in_shape (shape a) (px t p)).
      { intros t p Ht Hp. rewrite S1. pose proof (CudaKernelProofs.ring_start_bounds nside t Hn Ht). cbn [in_shape]. lia. }
      destruct (analysis_lemma gl "healpix" HEALPIX a' L 0 "sov_fft_vectorized" nside (Some nside) true 0) as (w & y & Ew & Ey & Sy & Hy); auto; try lia.
      - cbn [map_shape]. congruence.
      - discriminate.
      - right. split; [right; reflexivity|]. split; auto.
      - intros _ _ t p [Ht Hp]. cbn [fgrid the_grid hp_grid gn gN] in Ht, Hp. cbn [fvals sample_index]. rewrite <- Ga by now apply R2. apply R1. now apply R2.
      - exists x, y. split; [exact Ex|]. split; [exact Ey|].
        assert (V : forall l m, 0 <= l < L -> - L < m < L -> stored L y l m = pixel_mean a l m).
        { intros l m Hl Hm. rewrite Hy by auto. replace (Z.max 0 (Z.abs 0) <=? l) with true by lia. rewrite (fsum_mean a' w l m Ew). unfold pixel_mean. f_equal.
          apply cr_ext. intros t Ht. apply cr_ext. intros p Hp. now rewrite <- Ga by now apply R2. }
        destruct Hx as [Sx Hx]. split; [split; [exact Sx|]|split; [exact Sy|split]].
        + intros l m Hm Hl. rewrite Hx, V by lia. reflexivity.
        + intros l m Hl Hm. rewrite !V by lia. rewrite <- !(fsum_mean a w _ _ Ew). apply fsum_conj. intros t p [Ht Hp].
          cbn [fgrid the_grid hp_grid gn gN] in Ht, Hp. cbn [fvals sample_index]. apply R1. now apply R2.
        + intros l m Hl Hm Hlm. rewrite V by auto. unfold pixel_mean. rewrite <- (Cmult_0_r (RtoC (4 * PI / IZR (12 * (nside * nside))))). f_equal. apply cr_0. intros t Ht. apply cr_0. intros p Hp. unfold sYlm.
          rewrite TurokProofs.wig_out by lia. rewrite Rmult_0_r. rewrite Cconj_mult, Cconj_R. ring.
    Qed.
    Lemma B_same x y : same_coeffs x y -> exists b b', B x = Ok b /\ B' y = Ok b' /\ same_map b b'.
    Proof.
      intros (Hx & Sy & Hy & Ty). destruct (alm2map_ok x _ Hx) as (f & Ef & Rf & Sf & Gf & Hf).
      destruct (synthesis_lemma gl "healpix" HEALPIX y L 0 "sov_fft_vectorized" nside (Some nside) true 0) as (f' & Ef' & Sf' & Hf'); auto; try lia; try discriminate.
      - right. split; [right; reflexivity|]. split; [reflexivity|]. split; [auto|]. intros _ _ el Hel. now apply (herm_real L).
      - exists f, f'. split; [exact Ef|]. split; [exact Ef'|]. split; [|split; auto]. split; [rewrite Sf'; exact Sf|].
        intros ix Hix. rewrite Sf in Hix. destruct ix as [|k [|]]; cbn [in_shape] in Hix; try easy.
        destruct (hp_pixel_ring nside k Hn ltac:(lia)) as (t & p & Ht & Hp & ->). rewrite Gf by auto.
        refine (eq_trans _ (eq_sym (Hf' t p (th t) Ht Hp (hp_colat nodes L nside t Hn Ht)))). apply SphFacts.synth_ext. intros l m Hl Hm. change (Z.abs 0) with 0 in Hl.
        rewrite (used_herm L true 0 0 (stored L y)) by auto. unfold above. replace (l <? 0) with false by lia. now apply (real_signal_id L).
    Qed.
    Lemma sub_same a a' b b' : same_map a a' -> same_map b b' -> exists c c', asub a b = Ok c /\ asub a' b' = Ok c' /\ same_map c c'.
    Proof.
      intros ((Sa & Ga) & S1 & R1) ((Sb & Gb) & S2 & R2). rewrite !asub_ok by congruence. do 2 eexists. split; [reflexivity|]. split; [reflexivity|].
      split; [split|split]; cbn [shape get]; auto.
      - intros ix Hix. rewrite Ga, Gb by congruence. reflexivity.
      - intros ix Hix. cbn [shape get] in *. unfold is_real, Im in *. specialize (R1 ix Hix). specialize (R2 ix ltac:(congruence)).
        destruct (get a ix) as [a1 a2], (get b ix) as [b1 b2]. cbn in *. change (a2 = 0%R) in R1. change (b2 = 0%R) in R2. rewrite R1, R2. ring.
    Qed.
    Lemma add_same a a' b b' : same_coeffs a a' -> same_coeffs b b' -> exists c c', aadd a b = Ok c /\ aadd a' b' = Ok c' /\ same_coeffs c c'.
    Proof.
      intros ((Sa & Ga) & S1 & R1 & T1) ((Sb & Gb) & S2 & R2 & T2). rewrite !aadd_ok by congruence. do 2 eexists. split; [reflexivity|]. split; [reflexivity|].
      split; [split|split; [|split]]; cbn [shape get]; auto.
      - intros l m Hm Hl. unfold stored. cbn [get]. now rewrite Ga, Gb by auto.
      - intros l m Hl Hm. unfold stored in *. cbn [get]. specialize (R1 l m Hl Hm). specialize (R2 l m Hl Hm). cbn beta in R1, R2. rewrite R1, R2, Cconj_plus. ring.
      - intros l m Hl Hm Hlm. unfold stored in *. cbn [get]. rewrite T1, T2 by auto. ring.
    Qed.
    Lemma forward_reference f n : 0 <= n -> shape f = [12 * (nside * nside)] -> all_real f ->
      same_ok (healpy_forward (Some h) f L nside n) (forward_iter gl f L 0 "healpix" (Some nside) true 0 n).
    Proof.
      intros Hn0 Sf Rf. destruct (refine_related same_map same_coeffs F B F' B' F_same B_same sub_same add_same f f n) as (x & y & Ex & Ey & Hx & Sy & Hy & Ty).
      { split; [apply arr_eq_refl|]. auto. }
      destruct (from_hp L x _ HL Hx) as (o & Eo & Ho). exists o, y. split; [unfold healpy_forward; rewrite Ex; exact Eo|]. split.
      - exact (eq_trans (forward_iter_refine gl HEALPIX L 0 0 (Some nside) true f n Hn0) Ey).
      - refine (holds_same L o y (restricted 0 0 (real_extension (stored L y))) HL Ho (conj Sy _)). intros l m Hl Hm. unfold restricted.
        replace (Z.max 0 (Z.abs 0) <=? l) with true by lia. cbn [andb]. destruct (Z.leb_spec (Z.abs m) l); [|now apply Ty]. symmetry. apply (real_ext_id L); auto; lia.
    Qed.
  End Ref.

  (** ** The error law *)
  Notation F := (fun f => healpy_map2alm (Some h) f L nside).
  Notation B := (fun flm => healpy_alm2map (Some h) flm L nside).
  Definition hp_maps (f : ndarray C) : Prop := shape f = [12 * (nside * nside)] /\ all_real f.
  Definition hp_lists (x : ndarray C) : Prop := shape x = [L * (L + 1) / 2].
  Definition entry (x : ndarray C) (l m : Z) : C := get x [m * (2 * L - 1 - m) / 2 + l].
  Lemma entry_listed x : hp_lists x -> hp_listed L x (entry x). Proof. intros Sx. split; auto. Qed.
  Lemma list_ix (P : Z -> Prop) : (forall l m, 0 <= m <= l -> l < L -> P (m * (2 * L - 1 - m) / 2 + l)) ->
    forall k, 0 <= k < L * (L + 1) / 2 -> P k.
  Proof. intros H k Hk. destruct (hp_getidx_surj L k HL Hk) as (l & m & [V1 V2] & <-). apply H; lia. Qed.
  Lemma pix_ix (P : Z -> Prop) : (forall t p, 0 <= t < 4 * nside - 1 -> 0 <= p < ring_length nside t -> P (ring_start (ring_length nside) t + p)) ->
    forall k, 0 <= k < 12 * (nside * nside) -> P k.
  Proof. intros H k Hk. destruct (hp_pixel_ring nside k Hn Hk) as (t & p & Ht & Hp & ->). auto. Qed.
  Lemma px_in t p : 0 <= t < 4 * nside - 1 -> 0 <= p < ring_length nside t -> in_shape [12 * (nside * nside)] (px t p).
  Proof. intros Ht Hp. pose proof (ring_start_bounds nside t Hn Ht). cbn [in_shape]. lia. Qed.

  Lemma hp_maps_space : array_space [12 * (nside * nside)] hp_maps.
  Proof.
    split; [now intros a [S _]|]. intros x y a b c [Sa Ra] [Sb Rb] (S1 & S2 & G). split; [congruence|]. intros ix Hix. rewrite G by auto.
    specialize (Ra ix ltac:(congruence)). specialize (Rb ix ltac:(congruence)). unfold is_real, Im in *. destruct (get a ix) as [a1 a2], (get b ix) as [b1 b2]. change (a2 = 0%R) in Ra. change (b2 = 0%R) in Rb. cbn. rewrite Ra, Rb. ring.
  Qed.
  Lemma hp_lists_space : array_space [L * (L + 1) / 2] hp_lists.
  Proof. split; [now intros a S|]. intros x y a b c Sa Sb (S1 & S2 & G). unfold hp_lists in *. congruence. Qed.
  Lemma map2alm_map : linear_map hp_maps hp_lists F.
  Proof.
    split.
    - intros a [Sa Ra]. destruct (map2alm_ok a Sa Ra) as (x & E & Sx & _). now exists x.
    - intros x y a b c [Sa Ra] [Sb Rb] [Sc Rc] (S1 & S2 & G).
      destruct (map2alm_ok a Sa Ra) as (a' & Ea & Sa' & Ga). destruct (map2alm_ok b Sb Rb) as (b' & Eb & Sb' & Gb). destruct (map2alm_ok c Sc Rc) as (c' & Ec & Sc' & Gc).
      exists a', b', c'. split; [exact Ea|]. split; [exact Eb|]. split; [exact Ec|]. split; [congruence|]. split; [congruence|].
      rewrite Sc'. intros ix Hix. destruct ix as [|k [|]]; cbn [in_shape] in Hix; try easy.
      revert k Hix. intros k [Hk _]. revert k Hk. apply (list_ix (fun k => get c' [k] = (RtoC x * get a' [k] + RtoC y * get b' [k])%C)). intros l m Hm Hl. rewrite Ga, Gb, Gc by auto.
      unfold pixel_mean. rewrite !Cmult_assoc, !(Cmult_comm (RtoC _) (RtoC (4 * PI / _))), <- !Cmult_assoc, <- Cmult_plus_distr_l. f_equal. unfold over_pixels.
      rewrite <- !cs_scal_l, <- cs_plus. apply cr_ext. intros t Ht. rewrite <- !cs_scal_l, <- cs_plus. apply cr_ext. intros p Hp.
      rewrite G by (rewrite Sc; now apply px_in). ring.
  Qed.
  Lemma real_signal_lin x y c c' d l m : (forall l m, 0 <= m <= l -> l < L -> d l m = (RtoC x * c l m + RtoC y * c' l m)%C) -> 0 <= l < L -> - l <= m <= l ->
    real_signal d l m = (RtoC x * real_signal c l m + RtoC y * real_signal c' l m)%C.
  Proof.
    clear. intros H Hl Hm. unfold real_signal, real_extension. destruct (Z.eqb_spec m 0) as [->|N].
    - rewrite H by lia. destruct (c l 0), (c' l 0). unfold RtoC, Cmult, Cplus. cbn. f_equal; ring.
    - destruct (Z.ltb_spec m 0); rewrite H by lia; [|reflexivity]. rewrite Cconj_plus, !Cconj_mult, !Cconj_R. ring.
  Qed.
  Lemma alm2map_map : linear_map hp_lists hp_maps B.
  Proof.
    split.
    - intros a Sa. destruct (alm2map_ok a _ (entry_listed a Sa)) as (f & E & R & S & _). exists f. split; [exact E|]. split; auto.
    - intros x y a b c Sa Sb Sc (S1 & S2 & G).
      destruct (alm2map_ok a _ (entry_listed a Sa)) as (a' & Ea & Ra' & Sa' & Ga & _). destruct (alm2map_ok b _ (entry_listed b Sb)) as (b' & Eb & Rb' & Sb' & Gb & _).
      destruct (alm2map_ok c _ (entry_listed c Sc)) as (c' & Ec & Rc' & Sc' & Gc & _).
      exists a', b', c'. split; [exact Ea|]. split; [exact Eb|]. split; [exact Ec|]. split; [congruence|]. split; [congruence|].
      rewrite Sc'. intros ix Hix. destruct ix as [|k [|]]; cbn [in_shape] in Hix; try easy.
      revert k Hix. intros k [Hk _]. revert k Hk. apply (pix_ix (fun k => get c' [k] = (RtoC x * get a' [k] + RtoC y * get b' [k])%C)). intros t p Ht Hp. rewrite Ga, Gb, Gc by auto.
      apply SphMore.synth_lin. intros l m Hl Hm. apply real_signal_lin; auto; try lia. intros l' m' Hm' Hl'. unfold entry. apply G. rewrite Sc. cbn [in_shape].
      assert (V : valid_lm_pos L l' m') by (unfold valid_lm_pos; lia). pose proof (hp_getidx_range L l' m' V). rewrite hp_ix. lia.
  Qed.
  Lemma forward_error flm n : 0 <= n -> shape flm = [L; 2 * L - 1] -> exists f x e z, healpy_inverse (Some h) flm L nside = Ok f /\
    healpy_forward (Some h) f L nside n = Ok z /\ hp_listed L x (stored L flm) /\ defect F B (S (Z.to_nat n)) x e /\ shape e = [L * (L + 1) / 2] /\
    holds_coefficients L z (restricted 0 0 (real_extension (fun l m => (stored L flm l m - get e [(m * (2 * L - 1 - m) / 2 + l)%Z])%C))).
  Proof.
    intros Hn0 Sf. pose proof (to_hp L flm HL Sf) as Hx. set (x := flm_2d_to_hp_fast (RtoC 0) flm L) in *. destruct (inverse_ok flm Sf) as (f & Ef & Rf & Sf' & _).
    destruct (refine_error _ _ _ _ F B hp_maps_space hp_lists_space map2alm_map alm2map_map x f (proj1 Hx) Ef n Hn0) as (y & e & Ey & Qy & (S1 & S2 & G) & D).
    assert (Se : shape e = [L * (L + 1) / 2]) by (rewrite <- S2; exact Qy).
    destruct (from_hp L y (fun l m => (stored L flm l m - get e [(m * (2 * L - 1 - m) / 2 + l)%Z])%C) HL) as (z & Ez & Hz).
    - split; [exact Qy|]. intros l m Hm Hl. rewrite G.
      + rewrite (proj2 Hx) by auto. rewrite RtoC_m1. ring.
      + rewrite Se. assert (V : valid_lm_pos L l m) by (unfold valid_lm_pos; lia). pose proof (hp_getidx_range L l m V). rewrite hp_ix. cbn [in_shape]. lia.
    - exists f, x, e, z. split; [exact Ef|]. split; [unfold healpy_forward; rewrite Ey; exact Ez|]. auto.
  Qed.
  Lemma forward_0 f : shape f = [12 * (nside * nside)] -> all_real f -> exists z, healpy_forward (Some h) f L nside 0 = Ok z /\
    holds_coefficients L z (restricted 0 0 (pixel_mean f)).
  Proof.
    intros Sf Rf. destruct (map2alm_ok f Sf Rf) as (x & Ex & Hx). destruct (from_hp L x _ HL Hx) as (z & Ez & Sz & Hz). exists z.
    split; [unfold healpy_forward; rewrite refine_0 by lia; rewrite Ex; exact Ez|]. split; [exact Sz|]. intros l m Hl Hm. rewrite Hz by auto.
    unfold restricted. replace (Z.max 0 (Z.abs 0) <=? l) with true by lia. cbn [andb]. destruct (Z.leb_spec (Z.abs m) l); [|reflexivity].
    unfold real_extension. destruct (Z.ltb_spec m 0); [|reflexivity]. unfold pixel_mean. rewrite Cconj_mult, Cconj_R, !Cmult_assoc, (Cmult_comm (RtoC (sgn m))), <- Cmult_assoc. f_equal.
    unfold over_pixels. rewrite csum_conj, <- cs_scal_l. apply cr_ext. intros t Ht. rewrite csum_conj, <- cs_scal_l. apply cr_ext. intros p Hp.
    rewrite Cconj_mult, Cconj_conj. rewrite (real_conj (get f _)) by (apply Rf; rewrite Sf; now apply px_in).
    replace m with (- - m) at 3 by ring. rewrite (sYlm_conj l (- m)) by lia. rewrite Cconj_mult, Cconj_conj, Cconj_R, sgn_opp. ring.
  Qed.
End H.
