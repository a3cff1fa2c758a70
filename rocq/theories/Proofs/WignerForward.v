(** The forward Wigner transform. *)
From Coq Require Import Reals ZifyBool Lra.
From Coquelicot Require Import Complex.
From Verif Require Import Lib.Py Lib.PyFacts Lib.Vec Lib.VecFacts Lib.Sums Lib.Cplx Lib.Arr Lib.ArrFacts Lib.MatFacts
  Model.Index Model.Samples Model.Grids Model.FFT Model.HealpixFFT Model.Turok Model.Resampling Model.Quadrature Model.Spherical Model.Wigner
  Spec.SamplesSpec Spec.WignerSpec Spec.SphereSpec Spec.GridSpec Spec.HealpixFFTSpec Spec.SphericalSpec Spec.QuadSpec Spec.SO3Spec
  Proofs.SamplesProofs Proofs.GridProofs Proofs.PixelProofs Proofs.TurokProofs Proofs.HealpixDFTProofs Proofs.SphGrid
  Proofs.WignerCalc Proofs.SphereTheory Proofs.SphInverse Proofs.SphTop Proofs.SphForward Proofs.SphForwardTop Proofs.SphRound Proofs.SphFacts
  Proofs.WignerInverse.
Open Scope string_scope.
Open Scope Z_scope.

Definition sample_ix (s : scheme) (L nside : Z) (ix : list Z) : Prop :=
  exists t p, 0 <= t < rings s L nside /\ 0 <= p < ring_size s L nside t /\ ix = sample_index s nside t p.

(** ** Fourier components in gamma *)
Definition comp (N : Z) (f : ndarray C) (n : Z) (ix : list Z) : C :=
  (RtoC (2 * PI / IZR (2 * N - 1)) * csum (zrange 0 (2 * N - 1)) (fun g => get f (g :: ix) * root (2 * N - 1) (- (n * g))))%C.
Lemma half_odd N : (2 * N - 1) / 2 = N - 1.
Proof. symmetry. apply Z.div_unique with 1; lia. Qed.

Definition fban3 (reality : bool) (N : Z) (f : ndarray C) : ndarray C :=
  amap (fun z => (z * RtoC (2 * PI / IZR (2 * N - 1)))%C) (if reality then map_axis0 rfft_bwd f else map_axis0 (fun v => fftshift (fft_bwd v)) f).
Section Fwd.
  Variables (gl : gl_rule) (s : scheme) (L N Lo nside : Z) (o : option Z) (reality : bool) (f : ndarray C).
  Hypothesis (S : setting (scheme_name s) s L nside o) (HN : 1 <= N) (HLo : 0 <= Lo < L) (Hf : shape f = 2 * N - 1 :: map_shape s L nside)
    (Hr : reality = true -> forall g ix, 0 <= g < 2 * N - 1 -> sample_ix s L nside ix -> is_real (get f (g :: ix))).
  Notation n0 := (if reality then 0 else - N + 1).
  Lemma fban3_plane n : n0 <= n < N -> exists p, plane (fban3 reality N f) (n - n0) = Ok p /\ shape p = map_shape s L nside /\
    forall ix, sample_ix s L nside ix -> get p ix = comp N f n ix.
  Proof using HN Hf Hr.
    intros Hn. unfold fban3. destruct reality eqn:ER.
    - destruct (map_axis0_ok rfft_bwd f (2 * N - 1) (map_shape s L nside) N (sample_ix s L nside) (line0 f) Hf) as (M1 & M2).
      { apply vext_rfft. }
      { intros v Hv. cbn [rfft_bwd vlen]. rewrite Hv, half_odd. lia. }
      { intros ix _. split; auto. }
      rewrite (plane_ok _ N (map_shape s L nside)) by (cbn [amap shape]; auto; lia). eexists. split; [reflexivity|]. split; [reflexivity|].
      intros ix Hix. cbn [amap get]. rewrite M2 by (auto; lia). cbn [rfft_bwd vat fft_bwd real_part vmap vlen line0]. rewrite Hf. cbn [hd].
      unfold comp. rewrite Cmult_comm. f_equal. apply cr_ext. intros g Hg. rewrite real_Re by (apply Hr; auto). now rewrite Z.sub_0_r.
    - destruct (map_axis0_ok (fun v => fftshift (fft_bwd v)) f (2 * N - 1) (map_shape s L nside) (2 * N - 1) (sample_ix s L nside) (line0 f) Hf) as (M1 & M2).
      { apply (vext_comp fftshift fft_bwd); [apply vext_fftshift|apply vext_fft_bwd]. }
      { intros v Hv. exact Hv. }
      { intros ix _. split; auto. }
      rewrite (plane_ok _ (2 * N - 1) (map_shape s L nside)) by (cbn [amap shape]; auto; lia). eexists. split; [reflexivity|]. split; [reflexivity|].
      intros ix Hix. cbn [amap get]. rewrite M2 by (auto; lia). cbn [fftshift vat fft_bwd vlen line0]. rewrite Hf. cbn [hd].
      unfold comp. rewrite Cmult_comm. f_equal. apply cr_ext. intros g Hg. f_equal. rewrite half_odd.
      apply root_congr; [lia|]. rewrite <- !Z.mul_opp_r. rewrite Zmult_mod_idemp_l. f_equal. lia.
  Qed.

  (** the coefficients put together from those of the components *)
  Definition out3 (X : Z -> Z -> Z -> C) (n el m : Z) : C :=
    if reality && (n <? 0) then (RtoC (sgn (m + n)) * Cconj (X (- n)%Z el (- m)%Z))%C else X n el m.
  Lemma forward_loop (X : Z -> Z -> Z -> C) flmn :
    (forall n, n0 <= n < N -> exists p c, plane (fban3 reality N f) (n - n0) = Ok p /\ forward gl p L (- n) (scheme_name s) o reality Lo = Ok c /\
       holds_coefficients L c (fun el m => RtoC (sgn n) * X n el m)%C) -> shape flmn = [2 * N - 1; L; 2 * L - 1] ->
    exists flmn', foldM (fun flmn n =>
      let* p := plane (fban3 reality N f) (n - n0) in
      let* c := forward gl p L (- n) (scheme_name s) o reality Lo in
      let* flmn := plane_set flmn (N - 1 + n) (amap (fun z => (RtoC (m1 n) * z)%C) c) in
      if reality && negb (n =? 0) then
        let* q := plane flmn (N - 1 + n) in
        let* q := conj_plane q L n in
        plane_set flmn (N - 1 - n) q
      else Ok flmn) (zrange n0 N) flmn = Ok flmn' /\ holds_coefficients3 L N flmn' (out3 X).
  Proof using HN.
    clear Hr. intros HX Sf.
    destruct (foldM_inv (fun k a => shape a = [2 * N - 1; L; 2 * L - 1] /\
      forall n el m, n0 <= n < k \/ (reality = true /\ - k < n < 0) -> 0 <= el < L -> - L < m < L -> stored3 L N a n el m = out3 X n el m)
      (fun flmn n =>
      let* p := plane (fban3 reality N f) (n - n0) in
      let* c := forward gl p L (- n) (scheme_name s) o reality Lo in
      let* flmn := plane_set flmn (N - 1 + n) (amap (fun z => (RtoC (m1 n) * z)%C) c) in
      if reality && negb (n =? 0) then
        let* q := plane flmn (N - 1 + n) in
        let* q := conj_plane q L n in
        plane_set flmn (N - 1 - n) q
      else Ok flmn) n0 N flmn) as (a & E & Sa & Ga).
    - destruct reality; lia.
    - split; [exact Sf|]. intros; destruct reality; lia.
    - intros n a Hn (Sa & Ga). destruct (HX n Hn) as (p & c & E1 & E2 & Sc & Gc). rewrite E1. cbn [bind]. rewrite E2. cbn [bind].
      destruct (plane_set_ok a (amap (fun z => (RtoC (m1 n) * z)%C) c) (2 * N - 1) [L; 2 * L - 1] (N - 1 + n)) as (a1 & -> & S1 & G1); auto.
      { destruct reality; lia. }
      cbn [bind].
      assert (V : forall el m, 0 <= el < L -> - L < m < L -> get a1 [N - 1 + n; el; m + L - 1] = X n el m).
      { intros el m H1 H2. rewrite G1, Z.eqb_refl. cbn [amap get]. fold (stored L c el m). rewrite Gc by auto.
        change (m1 n) with (sgn n). rewrite Cmult_assoc, <- RtoC_mult, sgn_sq. ring. }
      destruct (reality && negb (n =? 0)) eqn:EQ.
      + apply andb_prop in EQ. destruct EQ as (Q1 & Q2). assert (Q3 : n <> 0) by lia.
        rewrite (plane_ok a1 (2 * N - 1) [L; 2 * L - 1]) by (auto; destruct reality; lia). cbn [bind].
        unfold conj_plane, dim1 at 1. cbn [shape nth]. rewrite Z.eqb_refl. cbn [bind].
        set (q := mkArr _ _).
        destruct (plane_set_ok a1 q (2 * N - 1) [L; 2 * L - 1] (N - 1 - n)) as (a2 & -> & S2 & G2); auto.
        { destruct reality; lia. }
        exists a2. split; [reflexivity|]. split; [exact S2|]. intros k el m Hk Hel Hm. unfold stored3. rewrite G2.
        destruct (Z.eqb_spec (k + N - 1) (N - 1 - n)) as [Q|Q].
        * replace k with (- n) by lia. unfold q, dim1. cbn [get shape nth].
          replace (2 * L - 1 - 1 - (m + L - 1)) with (- m + L - 1) by lia. rewrite V by lia.
          unfold out3. rewrite Q1. cbn [andb]. replace (- n <? 0) with true by (rewrite Q1 in Hn; lia). rewrite Z.opp_involutive.
          rewrite !Cconj_mult, !Cconj_R. replace (- L + 1 + (- m + L - 1)) with (- m) by lia.
          change (m1 (Z.abs (- m))) with (sgn (Z.abs (- m))). change (m1 n) with (sgn n). rewrite sgn_abs, sgn_opp, sgn_add, sgn_opp, RtoC_mult. ring.
        * rewrite G1. destruct (Z.eqb_spec (k + N - 1) (N - 1 + n)) as [R|R].
          -- replace k with n by lia. unfold out3. rewrite Q1. cbn [andb]. replace (n <? 0) with false by (rewrite Q1 in Hn; lia).
             rewrite <- (V el m) by auto. rewrite G1, Z.eqb_refl. reflexivity.
          -- apply Ga; auto. lia.
      + exists a1. split; [reflexivity|]. split; [exact S1|]. intros k el m Hk Hel Hm.
        destruct (Z.eq_dec k n) as [->|Q].
        * unfold stored3. replace (n + N - 1) with (N - 1 + n) by lia. rewrite V by auto. unfold out3.
          destruct reality; cbn [andb]; [|reflexivity]. replace (n <? 0) with false by lia. reflexivity.
        * unfold stored3. rewrite G1. replace (k + N - 1 =? N - 1 + n) with false by lia. apply Ga; auto.
          destruct reality; [|lia]. cbn [andb] in EQ. lia.
    - exists a. split; [exact E|]. split; [exact Sa|]. intros n el m H1 H2 H3. apply Ga; auto. destruct reality; lia.
  Qed.
  Definition norm3 (el : Z) : R := sqrt (4 * PI / IZR (2 * el + 1)).
  Lemma wigner_forward_assemble (X : Z -> Z -> Z -> C) :
    (forall n, n0 <= n < N -> exists p c, plane (fban3 reality N f) (n - n0) = Ok p /\ forward gl p L (- n) (scheme_name s) o reality Lo = Ok c /\
       holds_coefficients L c (fun el m => RtoC (sgn n) * X n el m)%C) ->
    exists flmn, wigner_forward gl f L N Lo (scheme_name s) reality o = Ok flmn /\
      holds_coefficients3 L N flmn (fun n el m => out3 X n el m * RtoC (norm3 el))%C.
  Proof using S HN Hf.
    clear Hr. intros HX. unfold wigner_forward. rewrite (so3_shape s L N nside o S). cbn [bind].
    rewrite (proj2 (shape_is_eq _ _) Hf). cbn [assert_ bind].
    destruct (forward_loop X (zeros (RtoC 0) (flmn_shape L N)) HX eq_refl) as (a & E & Sa & Ga).
    cbv zeta. fold (fban3 reality N f). rewrite E. cbn [bind]. unfold einsum_nlm_l, dim1. rewrite Sa. cbn [nth vlen]. rewrite Z.eqb_refl.
    eexists. split; [reflexivity|]. split; [reflexivity|]. intros n el m H1 H2 H3. unfold stored3. cbn [get nth vat].
    fold (stored3 L N a n el m). rewrite Ga by auto. reflexivity.
  Qed.
End Fwd.
