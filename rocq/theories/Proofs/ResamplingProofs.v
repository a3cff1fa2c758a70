(** Resampling between the mw and mwss grids, periodic extension, upsampling. *)
From Coq Require Import Reals Lra ZifyBool.
From Coquelicot Require Import Complex.
From Verif Require Import Lib.Py Lib.PyFacts Lib.Vec Lib.VecFacts Lib.Sums Lib.Cplx Lib.Arr Lib.MatFacts
  Model.FFT Model.Samples Model.Resampling Spec.SphereSpec.
Open Scope Z_scope.

Definition dft (n : Z) (x : Z -> C) (m : Z) : C :=
  csum (zrange 0 n) (fun q => (x q * root n (- (m * q)))%C).

Lemma dft_congr n x m m' : 0 < n -> m mod n = m' mod n -> dft n x m = dft n x m'.
Proof.
  intros Hn E. unfold dft. apply cr_ext. intros q Hq. f_equal. apply root_congr; [lia|].
  rewrite <- !Z.mul_opp_l, Z.mul_mod, (Z.mul_mod (- m')) by lia. f_equal. f_equal.
  rewrite <- (Z.sub_0_l m), <- (Z.sub_0_l m'). rewrite <- (Zminus_mod_idemp_r 0 m), <- (Zminus_mod_idemp_r 0 m'), E.
  reflexivity.
Qed.

Lemma dft_ext n x y m : (forall q, 0 <= q < n -> x q = y q) -> dft n x m = dft n y m.
Proof. intros H. apply cr_ext. intros q Hq. now rewrite H. Qed.

Lemma shift_fft_dft n x j : 0 < n -> vat (fftshift (fft_bwd (mkVec n x))) j = dft n x (j - n / 2).
Proof. intros Hn. cbn [fftshift fft_bwd vlen vat]. apply (dft_congr n x); [lia|]. apply Z.mod_mod. lia. Qed.

(** the inverse transform of the spectrum *)
Lemma idft_dft n x p a : 0 < n -> 0 <= p < n ->
  (csum (zrange a (a + n)) (fun m => dft n x m * root n (m * p)) / RtoC (IZR n))%C = x p.
Proof.
  intros Hn Hp. rewrite (cr_period n a (fun m => (dft n x m * root n (m * p))%C)).
  - unfold dft. rewrite (cr_ext 0 n _ (fun m => csum (zrange 0 n) (fun q => (x q * root n ((p - q) * m))%C))).
    + rewrite cs_swap. rewrite (cr_ext 0 n _ (fun q => if q =? p then (RtoC (IZR n) * x q)%C else RtoC 0)).
      * rewrite cr_delta by lia. field. intros E. apply RtoC_inj in E. apply (eq_IZR n 0) in E. lia.
      * intros q Hq. rewrite cs_scal_l, root_sum by lia.
        destruct (Z.eqb_spec q p) as [->|Hne].
        -- rewrite Z.sub_diag, Z.mod_0_l by lia. rewrite Z.eqb_refl. ring.
        -- destruct (Z.eqb_spec ((p - q) mod n) 0) as [E|E]; [|ring]. exfalso.
           apply Z.mod_divide in E; [|lia]. destruct E as (k & E). assert (k = 0) by nia. nia.
    + intros m Hm. rewrite <- cs_scal_r. apply cr_ext. intros q Hq. rewrite <- Cmult_assoc. f_equal.
      rewrite <- root_add. f_equal. ring.
  - lia.
  - intros m. f_equal.
    + apply dft_congr; [lia|]. rewrite <- (Z.mul_1_l n) at 1. apply Z.mod_add. lia.
    + apply root_congr; [lia|]. replace ((m + n) * p) with (m * p + p * n) by ring. apply Z.mod_add. lia.
Qed.

Lemma inv_fft_shift_eq b (w : vec C) p : vat (inv_fft_shift b w) p = vat (inv_fft_shift numpy w) p.
Proof.
  destruct b; [reflexivity|]. cbn [inv_fft_shift]. rewrite <- conj_fft. reflexivity.
Qed.
Lemma inv_fft_shift_ok b (w : vec C) n p : 0 < n -> vlen w = n ->
  vat (inv_fft_shift b w) p
  = csum (zrange (- (n / 2)) (- (n / 2) + n)) (fun m => (vat w (m + n / 2)%Z * root n (m * p))%C).
Proof. intros. rewrite inv_fft_shift_eq. now apply ifft_ifftshift. Qed.
Lemma inv_fft_n_shift_ok b n (w : vec C) p : 0 < n -> vlen w = n ->
  vat (inv_fft_n_shift b n w) p
  = (csum (zrange (- (n / 2)) (- (n / 2) + n)) (fun m => vat w (m + n / 2)%Z * root n (m * p)) / RtoC (IZR n))%C.
Proof.
  intros Hn Hl. rewrite <- (ifft_ifftshift w n p) by auto. destruct b; cbn [inv_fft_n_shift].
  - unfold ifft_bwd. cbn [vmap vat]. cbn [ifftshift vlen]. now rewrite Hl.
  - rewrite <- conj_fft. reflexivity.
Qed.
Lemma vext_inv_fft_shift b : vext (inv_fft_shift b).
Proof.
  destruct b; cbn [inv_fft_shift].
  - apply (vext_comp ifft_fwd ifftshift); [apply vext_ifft_fwd|apply vext_ifftshift].
  - apply (vext_comp (vmap Cconj) (fun x => fft_bwd (ifftshift (vmap Cconj x)))); [apply vext_vmap|].
    apply (vext_comp fft_bwd (fun x => ifftshift (vmap Cconj x))); [apply vext_fft_bwd|].
    apply (vext_comp ifftshift (vmap Cconj)); [apply vext_ifftshift|apply vext_vmap].
Qed.
Lemma vext_inv_fft_n_shift b n : vext (inv_fft_n_shift b n).
Proof.
  destruct b; cbn [inv_fft_n_shift].
  - apply (vext_comp ifft_bwd ifftshift); [apply vext_ifft_bwd|apply vext_ifftshift].
  - apply (vext_comp (vmap (fun z => (z / RtoC (IZR n))%C)) (fun x => vmap Cconj (fft_bwd (ifftshift (vmap Cconj x)))));
      [apply vext_vmap|]. exact (vext_inv_fft_shift jax).
Qed.
Lemma vext_shift_fft_bwd : vext (fun r => fftshift (fft_bwd r)).
Proof. apply (vext_comp fftshift fft_bwd); [apply vext_fftshift|apply vext_fft_bwd]. Qed.
Lemma vext_shift_fft_fwd : vext (fun r => fftshift (fft_fwd r)).
Proof. apply (vext_comp fftshift fft_fwd); [apply vext_fftshift|apply vext_fft_fwd]. Qed.

Lemma slice2_set_ok {T} (a b : ndarray T) n m F G r0 r1 c0 c1 :
  is_mat a n m F -> is_mat b (r1 - r0) (c1 - c0) G ->
  0 <= r0 -> r0 <= r1 -> r1 <= n -> 0 <= c0 -> c0 <= c1 -> c1 <= m ->
  exists a', slice2_set a r0 r1 c0 c1 b = Ok a' /\
    is_mat a' n m (fun r c => if (r0 <=? r) && (r <? r1) && (c0 <=? c) && (c <? c1)
                              then G (r - r0) (c - c0) else F r c).
Proof. intros. unfold slice2_set. now apply (slice2_add_ok (fun _ y => y) a b n m F G). Qed.
Lemma slice2_scale_ok (a : ndarray C) n m F w r0 r1 c0 c1 :
  is_mat a n m F ->
  0 <= r0 -> r0 <= r1 -> r1 <= n -> 0 <= c0 -> c0 <= c1 -> c1 <= m ->
  exists a', slice2_scale a r0 r1 c0 c1 w = Ok a' /\
    is_mat a' n m (fun r c => if (r0 <=? r) && (r <? r1) && (c0 <=? c) && (c <? c1)
                              then (F r c * w (r - r0)%Z (c - c0)%Z)%C else F r c).
Proof.
  intros Ha H1 H2 H3 H4 H5 H6. unfold slice2_scale. apply slice2_add_ok; auto.
  rewrite (is_mat_dim0 _ _ _ _ Ha), (is_mat_dim1 _ _ _ _ Ha), !slice_len_in by lia. apply is_mat_mat.
Qed.

(** ** periodic_extension *)
(** rows of the extension: the samples, then the fitted polynomials half a turn away *)
Definition ext_rows (L spin mo n : Z) (F : Z -> Z -> C) (r p : Z) : C :=
  if r <? L + mo then F r p
  else (csum (zrange (- (L - 1)) L) (fun m =>
          RtoC (sgn (m + spin)) * dft n (F (2 * L - 2 + 2 * mo - r)%Z) m * root n (m * p)) / RtoC (IZR n))%C.

Lemma extension_ok b (f : ndarray C) L spin sampling mo n F : 1 <= L -> mo = 0 \/ mo = 1 ->
  n = 2 * L - 1 + mo ->
  ntheta (Some L) sampling None = Ok (L + mo) -> nphi_equiang (Some L) sampling = Ok n ->
  ntheta_extension L sampling = Ok n -> (if streq sampling "mwss" then 1 else 0) = mo ->
  is_mat f (L + mo) n F ->
  exists g, periodic_extension b f L spin sampling = Ok g /\ is_mat g n n (ext_rows L spin mo n F).
Proof.
  intros HL Hmo Hn En Ep Ee Emo Hf. unfold periodic_extension.
  rewrite En, Ep, Ee. cbn [bind]. rewrite Emo. assert (Hlo : - (n / 2) = - (L - 1) - mo).
  { destruct Hmo; subst mo; subst n; [replace (2 * L - 1 + 0) with ((L - 1) * 2 + 1) by lia|replace (2 * L - 1 + 1) with (L * 2 + 0) by lia];
      rewrite Z.div_add_l by lia; change (1 / 2) with 0; change (0 / 2) with 0; lia. }
  destruct (slice2_set_ok (czeros n n) (slice2 f 0 (L + mo) 0 n) n n (fun _ _ => RtoC 0)
              (fun r c => F (0 + r) (0 + c)) 0 (L + mo) 0 n) as (f1 & E1 & H1); try lia.
  { apply is_mat_mat. } { apply (slice2_ok f (L + mo) n F); auto; lia. }
  rewrite E1. cbn [bind]. clear E1.
  assert (H2 : is_mat (map_rows (fun r => fftshift (fft_bwd r)) f1) n n
                 (fun r c => if r <? L + mo then dft n (F r) (c - n / 2) else RtoC 0)).
  { eapply map_rows_ok; [exact H1|apply vext_shift_fft_bwd|reflexivity| |lia].
    intros r c Hr Hc. cbv beta. rewrite shift_fft_dft by lia. destruct (Z.ltb_spec r (L + mo)).
    - apply dft_ext. intros q Hq. repeat zif.
      f_equal; lia.
    - unfold dft. apply cr_0. intros q Hq. repeat zif.
      ring. }
  clear H1. set (f2 := map_rows _ f1) in *.
  destruct (slice2_set_ok f2 (flip0 (slice2 f2 mo (L - 1 + mo) mo (2 * L - 1 + mo))) n n
    (fun r c => if r <? L + mo then dft n (F r) (c - n / 2) else RtoC 0)
    (fun r c => dft n (F (mo + (L - 2 - r))) (mo + c - n / 2)) (L + mo) (2 * L - 1 + mo) mo (2 * L - 1 + mo))
    as (f3 & E3 & H3); try lia.
  { exact H2. }
  { eapply is_mat_ext; [apply flip0_ok; replace (2 * L - 1 + mo - (L + mo)) with (L - 1 + mo - mo) by lia;
      apply (slice2_ok f2 n n _ mo (L - 1 + mo) mo (2 * L - 1 + mo) H2); lia|].
    intros r c Hr Hc. cbv beta. repeat zif.
    f_equal. f_equal. lia. }
  rewrite E3. cbn [bind]. clear E3.
  destruct (slice2_scale_ok f3 n n _ (fun _ c => pow_m1 (- (L - 1) + c)) (L + mo) (2 * L - 1 + mo) mo (2 * L - 1 + mo) H3)
    as (f4 & E4 & H4); try lia.
  rewrite E4. cbn [bind]. clear E4.
  destruct (slice2_scale_ok f4 n n _ (fun _ _ => pow_m1 spin) (L + mo) (2 * L - 1 + mo) mo (2 * L - 1 + mo) H4)
    as (f5 & E5 & H5); try lia.
  rewrite E5. cbn [bind]. clear E5. eexists; split; [reflexivity|].
  eapply map_rows_ok; [exact H5|apply vext_inv_fft_n_shift| | |lia].
  { intros r. destruct b; reflexivity. }
  intros r p Hr Hp. cbv beta. rewrite (inv_fft_n_shift_ok b n) by (auto; lia). cbn [vat]. unfold ext_rows.
  destruct (Z.ltb_spec r (L + mo)) as [Hlt|Hge].
  - rewrite <- (idft_dft n (F r) p (- (n / 2))) by lia. f_equal. apply cr_ext. intros m Hm.
    repeat zif. 
    repeat zif. f_equal. f_equal. lia.
  - f_equal.
    rewrite (cr_shrink (- (n / 2)) (- (n / 2) + n) (- (L - 1)) L); try lia.
    + apply cr_ext. intros m Hm.
      repeat zif. 
      unfold pow_m1. rewrite !sgn_abs, (sgn_add m spin), RtoC_mult.
      replace (- (L - 1) + (m + n / 2 - mo)) with m by lia.
      replace (mo + (m + n / 2 - mo) - n / 2) with m by lia.
      replace (mo + (L - 2 - (r - (L + mo)))) with (2 * L - 2 + 2 * mo - r) by lia. ring.
    + intros m Hm Hout.
      repeat zif. 
      repeat zif. ring.
Qed.

(** ** unextend *)
Lemma unextend_mwss_ok b (g : ndarray C) L m G : 0 <= L -> 0 <= m -> L + 1 <= 2 * L -> is_mat g (2 * L) m G ->
  exists f, unextend b g L "mwss" = Ok f /\ is_mat f (L + 1) m G.
Proof.
  intros HL Hm H2 Hg. exists (slice2 g 0 (L + 1) 0 (dim1 g)). split.
  - unfold unextend.
    change (negb (str_in (lower "mwss") ["mw"%string; "mwss"%string])) with false.
    change (ntheta_extension L "mwss") with (Ok (2 * L)).
    change (streq (lower "mwss") "mw") with false. change (streq (lower "mwss") "mwss") with true.
    cbv iota. cbn [bind]. rewrite (is_mat_dim0 _ _ _ _ Hg), Z.eqb_refl. destruct b; reflexivity.
  - assert (H3 := slice2_ok g _ _ _ 0 (L + 1) 0 m Hg ltac:(lia) ltac:(lia) ltac:(lia) ltac:(lia) ltac:(lia) ltac:(lia)).
    rewrite (is_mat_dim1 _ _ _ _ Hg). rewrite !Z.sub_0_r in H3. exact H3.
Qed.
Lemma unextend_mw_ok b (g : ndarray C) L m G : 1 <= L -> 0 <= m -> is_mat g (2 * L - 1) m G ->
  exists f, unextend b g L "mw" = Ok f /\ is_mat f L m G.
Proof.
  intros HL Hm Hg. exists (slice2 g 0 L 0 (dim1 g)). split.
  - unfold unextend.
    change (negb (str_in (lower "mw") ["mw"%string; "mwss"%string])) with false.
    change (ntheta_extension L "mw") with (Ok (2 * L - 1)).
    change (streq (lower "mw") "mw") with true.
    cbv iota. cbn [bind]. rewrite (is_mat_dim0 _ _ _ _ Hg), Z.eqb_refl. destruct b; reflexivity.
  - assert (H3 := slice2_ok g _ _ _ 0 L 0 m Hg ltac:(lia) ltac:(lia) ltac:(lia) ltac:(lia) ltac:(lia) ltac:(lia)).
    rewrite (is_mat_dim1 _ _ _ _ Hg). rewrite !Z.sub_0_r in H3. exact H3.
Qed.

(** ** Band-limited signals *)
Section Signal.
  Context (L s : Z) (a : Z -> Z -> C) (HL : 1 <= L).
  Context (Hpar : forall k m, - L < k < L -> - L < m < L -> a (- k) m = (RtoC (sgn (m + s)) * a k m)%C).

  (** Fourier coefficient of order m at colatitude theta; coefficient of order k at longitude phi *)
  Definition Fm (m : Z) (theta : R) : C :=
    csum (zrange (- (L - 1)) L) (fun k => (a k m * cis (IZR k * theta))%C).
  Definition Fk (k : Z) (phi : R) : C :=
    csum (zrange (- (L - 1)) L) (fun m => (a k m * cis (IZR m * phi))%C).
  Definition F2 (theta phi : R) : C :=
    csum (zrange (- (L - 1)) L) (fun m => (Fm m theta * cis (IZR m * phi))%C).

  Lemma F2_k theta phi : F2 theta phi = csum (zrange (- (L - 1)) L) (fun k => (Fk k phi * cis (IZR k * theta))%C).
  Proof using Type.
    unfold F2, Fm, Fk.
    rewrite (cr_ext _ _ _ (fun m => csum (zrange (- (L - 1)) L) (fun k => (a k m * cis (IZR k * theta) * cis (IZR m * phi))%C))).
    2:{ intros m _. now rewrite cs_scal_r. }
    rewrite cs_swap. apply cr_ext. intros k _. rewrite <- cs_scal_r. apply cr_ext. intros m _. ring.
  Qed.

  Lemma Fm_neg m theta : - L < m < L -> Fm m (- theta) = (RtoC (sgn (m + s)) * Fm m theta)%C.
  Proof using Hpar.
    intros Hm. unfold Fm. rewrite <- cr_rev. rewrite <- cs_scal_l. apply cr_ext. intros k Hk.
    replace (- (L - 1) + L - 1 - k) with (- k) by lia. rewrite Hpar by lia. rewrite opp_IZR.
    replace (- IZR k * - theta)%R with (IZR k * theta)%R by ring. ring.
  Qed.

  Lemma cis_k_period k x : cis (IZR k * (x + 2 * PI)) = cis (IZR k * x).
  Proof using Type.
    replace (IZR k * (x + 2 * PI))%R with (IZR k * x + 2 * PI * IZR k)%R by ring. apply cis_period.
  Qed.
  Lemma Fm_period m x : Fm m (x + 2 * PI) = Fm m x.
  Proof using Type. apply cr_ext. intros k _. now rewrite cis_k_period. Qed.
  Lemma Fm_mirror m theta theta' : - L < m < L -> (theta' = 2 * PI - theta)%R ->
    Fm m theta' = (RtoC (sgn (m + s)) * Fm m theta)%C.
  Proof using Hpar.
    intros Hm ->. replace (2 * PI - theta)%R with (- theta + 2 * PI)%R by ring. rewrite Fm_period. now apply Fm_neg.
  Qed.
  (** over the pole: half a turn in longitude and a sign *)
  Lemma F2_mirror theta phi : F2 (2 * PI - theta) phi = (RtoC (sgn s) * F2 theta (phi + PI))%C.
  Proof using Hpar.
    unfold F2. rewrite <- cs_scal_l. apply cr_ext. intros m Hm. rewrite (Fm_mirror m theta) by (auto; lia).
    rewrite Rmult_plus_distr_l, cis_plus, cis_kPI, sgn_add, RtoC_mult. ring.
  Qed.

  Lemma cis_root n m p : cis (IZR m * (2 * PI * IZR p / IZR n)) = root n (m * p).
  Proof using Type. unfold root. f_equal. rewrite mult_IZR. unfold Rdiv. ring. Qed.

  (** orders recovered from n >= 2L-1 equidistant samples *)
  Lemma dft_trig n (c : Z -> C) (x : Z -> C) m : n = 2 * L - 1 \/ n = 2 * L -> - L < m < L ->
    (forall q, 0 <= q < n -> x q = csum (zrange (- (L - 1)) L) (fun j => (c j * root n (j * q))%C)) ->
    dft n x m = (RtoC (IZR n) * c m)%C.
  Proof using HL.
    intros Hn Hm Hx. set (c' j := if (- L <? j) && (j <? L) then c j else RtoC 0).
    replace (c m) with (c' m) by (unfold c'; zif; reflexivity).
    rewrite <- (dft_inversion n (- L + (if n =? 2 * L then 0 else 1)) c' m) by (destruct (Z.eqb_spec n (2 * L)); lia).
    unfold dft. apply cr_ext. intros q Hq. rewrite Hx by auto. f_equal.
    rewrite (cr_shrink (- L + (if n =? 2 * L then 0 else 1)) _ (- (L - 1)) L); try (destruct (Z.eqb_spec n (2 * L)); lia).
    - apply cr_ext. intros j Hj. unfold c'. zif. reflexivity.
    - intros j Hj Hout. unfold c'. replace ((- L <? j) && (j <? L)) with false by (destruct (Z.eqb_spec n (2 * L)); lia).
      ring.
  Qed.

  Lemma dft_F2 n theta (x : Z -> C) m : n = 2 * L - 1 \/ n = 2 * L -> - L < m < L ->
    (forall q, 0 <= q < n -> x q = F2 theta (2 * PI * IZR q / IZR n)) ->
    dft n x m = (RtoC (IZR n) * Fm m theta)%C.
  Proof using HL.
    intros Hn Hm Hx. apply (dft_trig n (fun j => Fm j theta)); auto. intros q Hq. rewrite Hx by auto.
    apply cr_ext. intros j _. now rewrite cis_root.
  Qed.

  Lemma IZR_nz n : n <> 0 -> RtoC (IZR n) <> RtoC 0.
  Proof using Type. intros Hn E. apply RtoC_inj in E. apply (eq_IZR n 0) in E. lia. Qed.

  (** the periodic extension of samples is the samples on the whole circle *)
  Lemma ext_F2 mo n th F : mo = 0 \/ mo = 1 -> n = 2 * L - 1 + mo ->
    (forall r, 0 <= r < n -> th (2 * L - 2 + 2 * mo - r) = (2 * PI - th r)%R) ->
    (forall r p, 0 <= r < L + mo -> 0 <= p < n -> F r p = F2 (th r) (2 * PI * IZR p / IZR n)) ->
    forall r p, 0 <= r < n -> 0 <= p < n -> ext_rows L s mo n F r p = F2 (th r) (2 * PI * IZR p / IZR n).
  Proof using HL Hpar.
    intros Hmo Hn Hth HF r p Hr Hp. unfold ext_rows. destruct (Z.ltb_spec r (L + mo)).
    - apply HF; lia.
    - unfold F2. unfold Cdiv. rewrite <- cs_scal_r. apply cr_ext. intros m Hm.
      rewrite (dft_F2 n (th (2 * L - 2 + 2 * mo - r))) by (try lia; intros; apply HF; lia).
      rewrite (Fm_mirror m (th r)) by (try lia; apply Hth; lia). rewrite cis_root.
      assert (N := IZR_nz n ltac:(lia)).
      transitivity (RtoC (sgn (m + s) * sgn (m + s)) * Fm m (th r) * root n (m * p))%C.
      + rewrite RtoC_mult. field. exact N.
      + rewrite sgn_sq. ring.
  Qed.

  Lemma mw_theta_mirror r : mw_theta L (2 * L - 2 + 2 * 0 - r) = (2 * PI - mw_theta L r)%R.
  Proof using HL.
    unfold mw_theta. assert (IZR (2 * L - 1) <> 0)%R by (apply not_0_IZR; lia).
    replace (2 * (2 * L - 2 + 2 * 0 - r) + 1) with (2 * (2 * L - 1) - (2 * r + 1)) by lia.
    rewrite minus_IZR, (mult_IZR 2 (2 * L - 1)). field. auto.
  Qed.
  Lemma mwss_theta_mirror r : mwss_theta L (2 * L - 2 + 2 * 1 - r) = (2 * PI - mwss_theta L r)%R.
  Proof using HL.
    unfold mwss_theta. assert (IZR L <> 0)%R by (apply not_0_IZR; lia).
    replace (2 * L - 2 + 2 * 1 - r) with (2 * L - r) by lia.
    rewrite minus_IZR, (mult_IZR 2 L). field. auto.
  Qed.

  Lemma even_div n : n / 2 * 2 = n \/ n / 2 * 2 = n - 1.
  Proof using Type. assert (H := Z.div_mod n 2 ltac:(lia)). assert (B := Z.mod_pos_bound n 2 ltac:(lia)). lia. Qed.

  (** spectrum of samples with coefficients c of order |j| < L *)
  Lemma shift_fft_fwd_trig n (x c : Z -> C) j : n = 2 * L - 1 \/ n = 2 * L -> 0 <= j < n ->
    (forall q, 0 <= q < n -> x q = csum (zrange (- (L - 1)) L) (fun i => (c i * root n (i * q))%C)) ->
    vat (fftshift (fft_fwd (mkVec n x))) j = if - L <? j - n / 2 then c (j - n / 2) else RtoC 0.
  Proof using HL.
    intros Hn Hj Hx. assert (D := even_div n).
    set (c' i := if (- L <? i) && (i <? L) then c i else RtoC 0).
    rewrite (shift_fft_fwd (mkVec n x) c' n); auto; try lia.
    - unfold c'. destruct (Z.ltb_spec (- L) (j - n / 2)); [|reflexivity]. zif. reflexivity.
    - intros q Hq. cbn [vat]. rewrite Hx by auto.
      rewrite (cr_shrink (- (n / 2)) _ (- (L - 1)) L); try lia.
      + apply cr_ext. intros i Hi. unfold c'. zif. reflexivity.
      + intros i Hi Hout. unfold c'. zif. ring.
  Qed.

  (** synthesis from 2L (or 4L, ...) slots holding the coefficients of order |j| < L *)
  Lemma inv_fft_shift_trig b n (w : vec C) (c : Z -> C) p : 2 * L <= n -> Z.even n = true -> vlen w = n ->
    (forall i, 0 <= i < n -> vat w i = if (- L <? i - n / 2) && (i - n / 2 <? L) then c (i - n / 2) else RtoC 0) ->
    vat (inv_fft_shift b w) p = csum (zrange (- (L - 1)) L) (fun i => (c i * root n (i * p))%C).
  Proof using HL.
    intros Hn He Hl Hw. apply even_half in He.
    rewrite (inv_fft_shift_ok b w n) by (auto; lia).
    rewrite (cr_shrink (- (n / 2)) _ (- (L - 1)) L); try lia.
    - apply cr_ext. intros i Hi. rewrite Hw by lia. replace (i + n / 2 - n / 2) with i by lia. zif. reflexivity.
    - intros i Hi Hout. rewrite Hw by lia. replace (i + n / 2 - n / 2) with i by lia. zif. ring.
  Qed.


  Lemma mw_to_mwss_theta_ok b (f : ndarray C) : is_mat f L (2 * L - 1) (fun t p => F2 (mw_theta L t) (mw_phi L p)) ->
    exists g, mw_to_mwss_theta b f L s = Ok g /\
      is_mat g (L + 1) (2 * L - 1) (fun t p => F2 (mwss_theta L t) (mw_phi L p)).
  Proof using HL Hpar.
    intros Hf. unfold mw_to_mwss_theta.
    destruct (extension_ok b f L s "mw" 0 (2 * L - 1) (fun t p => F2 (mw_theta L t) (mw_phi L p)))
      as (g1 & E1 & H1); auto; try lia.
    { now rewrite Z.add_0_r. } { now rewrite Z.add_0_r. }
    rewrite E1. cbn [bind]. clear E1.
    apply (is_mat_ext _ _ _ _ (fun t p => F2 (mw_theta L t) (mw_phi L p))) in H1.
    2:{ intros r c Hr Hc. apply (ext_F2 0 (2 * L - 1) (mw_theta L)); auto; try lia.
        intros. apply mw_theta_mirror. }
    set (w := fun k => cis (- IZR k * PI / IZR (2 * L - 1))).
    assert (Hn : (2 * L - 1) / 2 = L - 1) by (replace (2 * L - 1) with ((L - 1) * 2 + 1) by lia; rewrite Z.div_add_l by lia; change (1 / 2) with 0; lia).
    assert (H2 : is_mat (map_cols (fun c => fftshift (fft_fwd c)) g1) (2 * L - 1) (2 * L - 1)
              (fun j p => (Fk (j - (L - 1))%Z (mw_phi L p) * cis (IZR (j - (L - 1)) * PI / IZR (2 * L - 1)))%C)).
    { eapply map_cols_ok; [exact H1|apply vext_shift_fft_fwd|reflexivity| |lia].
      intros j p Hj Hp. cbv beta.
      rewrite (shift_fft_fwd_trig (2 * L - 1) _ (fun k => (Fk k (mw_phi L p) * cis (IZR k * PI / IZR (2 * L - 1)))%C) j);
        try lia.
      - zif. rewrite Hn. reflexivity.
      - intros t Ht. rewrite F2_k. apply cr_ext. intros k _. rewrite <- Cmult_assoc. f_equal.
        unfold root. rewrite <- cis_plus. f_equal. unfold mw_theta. rewrite plus_IZR, !mult_IZR. unfold Rdiv. ring. }
    cbn [dim0 dim1 mat shape nth].
    destruct (slice2_set_ok (czeros (2 * L) (2 * L - 1)) (map_cols (fun c => fftshift (fft_fwd c)) g1) (2 * L) (2 * L - 1)
      (fun _ _ => RtoC 0) (fun j p => (Fk (j - (L - 1))%Z (mw_phi L p) * cis (IZR (j - (L - 1)) * PI / IZR (2 * L - 1)))%C)
      1 (2 * L) 0 (2 * L - 1)) as (g2 & E2 & H3); try lia.
    { apply is_mat_mat. }
    { replace (2 * L - 1 - 0) with (2 * L - 1) by lia. exact H2. }
    rewrite E2. cbn [bind]. clear E2. rewrite (is_mat_dim0 _ _ _ _ H3), (is_mat_dim1 _ _ _ _ H3).
    destruct (slice2_scale_ok g2 (2 * L) (2 * L - 1) _ (fun r _ => cis (- IZR (- (L - 1) + r) * PI / IZR (2 * L - 1)))
      1 (2 * L) 0 (2 * L - 1) H3) as (g3 & E3 & H4); try lia.
    rewrite E3. cbn [bind]. clear E3.
    assert (H5 : is_mat (map_cols (inv_fft_shift b) g3) (2 * L) (2 * L - 1) (fun t p => F2 (mwss_theta L t) (mw_phi L p))).
    { eapply map_cols_ok; [exact H4|apply vext_inv_fft_shift|destruct b; reflexivity| |lia].
      intros t p Ht Hp. cbv beta.
      rewrite (inv_fft_shift_trig b (2 * L) _ (fun k => Fk k (mw_phi L p))); try lia; try reflexivity.
      - rewrite F2_k. apply cr_ext. intros k _. f_equal. unfold root, mwss_theta. f_equal.
        rewrite !mult_IZR. field. apply not_0_IZR. lia.
      - now rewrite Z.even_mul.
      - intros i Hi. cbn [vat]. replace (2 * L / 2) with L by (rewrite Z.mul_comm, Z.div_mul; lia).
        destruct (Z.leb_spec 1 i).
        + repeat zif. replace (i - 1 - (L - 1)) with (i - L) by lia.
          replace (- (L - 1) + (i - 1)) with (i - L) by lia.
          rewrite <- Cmult_assoc, <- cis_plus.
          replace (IZR (i - L) * PI / IZR (2 * L - 1) + - IZR (i - L) * PI / IZR (2 * L - 1))%R with 0%R by (unfold Rdiv; ring).
          rewrite cis_0, Z.sub_0_r. ring.
        + repeat zif. reflexivity. }
    apply unextend_mwss_ok; auto; lia.
  Qed.

  Lemma half2 n : 2 * n / 2 = n.
  Proof using Type. rewrite Z.mul_comm. apply Z.div_mul. lia. Qed.

  (** any rows whose columns are sampled band-limited in longitude *)
  Lemma mw_to_mwss_phi_ok b (f : ndarray C) (th : Z -> R) :
    is_mat f (L + 1) (2 * L - 1) (fun t p => F2 (th t) (mw_phi L p)) ->
    exists g, mw_to_mwss_phi b f L = Ok g /\
      is_mat g (L + 1) (2 * L) (fun t p => F2 (th t) (mwss_phi L p)).
  Proof using HL.
    intros Hf. unfold mw_to_mwss_phi. cbn [dim0 dim1 mat shape nth].
    assert (Hn : (2 * L - 1) / 2 = L - 1)
      by (replace (2 * L - 1) with ((L - 1) * 2 + 1) by lia; rewrite Z.div_add_l by lia; change (1 / 2) with 0; lia).
    assert (H2 : is_mat (map_rows (fun c => fftshift (fft_fwd c)) f) (L + 1) (2 * L - 1)
              (fun t j => Fm (j - (L - 1)) (th t))).
    { eapply map_rows_ok; [exact Hf|apply vext_shift_fft_fwd|reflexivity| |lia].
      intros t j Ht Hj. cbv beta.
      rewrite (shift_fft_fwd_trig (2 * L - 1) _ (fun m => Fm m (th t)) j); try lia.
      - zif. rewrite Hn. reflexivity.
      - intros p Hp. unfold F2. apply cr_ext. intros m _. f_equal. unfold mw_phi. apply cis_root. }
    destruct (slice2_set_ok (czeros (L + 1) (2 * L)) (map_rows (fun c => fftshift (fft_fwd c)) f) (L + 1) (2 * L)
      (fun _ _ => RtoC 0) (fun t j => Fm (j - (L - 1)) (th t)) 0 (L + 1) 1 (2 * L)) as (g2 & E2 & H3); try lia.
    { apply is_mat_mat. }
    { replace (L + 1 - 0) with (L + 1) by lia. exact H2. }
    rewrite E2. cbn [bind]. clear E2. eexists; split; [reflexivity|].
    eapply map_rows_ok; [exact H3|apply vext_inv_fft_shift|destruct b; reflexivity| |lia].
    intros t p Ht Hp. cbv beta.
    rewrite (inv_fft_shift_trig b (2 * L) _ (fun m => Fm m (th t))); try lia; try reflexivity.
    - unfold F2. apply cr_ext. intros m _. f_equal. unfold mwss_phi. symmetry. apply cis_root.
    - now rewrite Z.even_mul.
    - intros i Hi. cbn [vat]. rewrite half2. destruct (Z.leb_spec 1 i).
      + repeat zif. rewrite Z.sub_0_r. f_equal. lia.
      + repeat zif. reflexivity.
  Qed.

  Lemma mw_to_mwss_ok b (f : ndarray C) : is_mat f L (2 * L - 1) (fun t p => F2 (mw_theta L t) (mw_phi L p)) ->
    exists g, mw_to_mwss b f L s = Ok g /\ is_mat g (L + 1) (2 * L) (fun t p => F2 (mwss_theta L t) (mwss_phi L p)).
  Proof using HL Hpar.
    intros Hf. unfold mw_to_mwss. destruct (mw_to_mwss_theta_ok b f Hf) as (g & -> & Hg). cbn [bind].
    now apply mw_to_mwss_phi_ok.
  Qed.

  Lemma cis_phi_shift m p q : (p - q) mod (2 * L) = L mod (2 * L) ->
    cis (IZR m * mwss_phi L p) = (RtoC (sgn m) * cis (IZR m * mwss_phi L q))%C.
  Proof using HL.
    intros E. unfold mwss_phi. rewrite !cis_root.
    destruct (root_half L m) as [H|]; [|lia]. rewrite <- H, <- root_add.
    apply root_congr; [lia|]. replace (m * p) with (m * q + m * (p - q)) by ring.
    rewrite (Z.add_comm (L * m)), Z.add_mod, (Z.add_mod (m * q) (L * m)) by lia. f_equal. f_equal.
    rewrite Z.mul_mod, E, <- Z.mul_mod by lia. f_equal. ring.
  Qed.
End Signal.

(** ** The spatial extension and upsampling *)
Definition spatial_rows (L s : Z) (F : Z -> Z -> C) (r p : Z) : C :=
  if r <? L + 1 then F r p else (RtoC (sgn s) * F (2 * L - r)%Z ((p - L) mod (2 * L))%Z)%C.

Lemma spatial_ok (f : ndarray C) L s F : 1 <= L -> is_mat f (L + 1) (2 * L) F ->
  exists g, periodic_extension_spatial_mwss f L s = Ok g /\ is_mat g (2 * L) (2 * L) (spatial_rows L s F).
Proof.
  intros HL Hf. unfold periodic_extension_spatial_mwss.
  destruct (slice2_set_ok (czeros (2 * L) (2 * L)) (slice2 f 0 (L + 1) 0 (2 * L)) (2 * L) (2 * L) (fun _ _ => RtoC 0)
    (fun r c => F (0 + r) (0 + c)) 0 (L + 1) 0 (2 * L)) as (g1 & E1 & H1); try lia.
  { apply is_mat_mat. } { apply (slice2_ok f (L + 1) (2 * L) F); auto; lia. }
  rewrite E1. cbn [bind]. clear E1. rewrite (is_mat_dim0 _ _ _ _ H1).
  assert (H2 := slice2_ok f (L + 1) (2 * L) F 1 (L + 1 - 1) 0 (2 * L) Hf ltac:(lia) ltac:(lia) ltac:(lia) ltac:(lia) ltac:(lia) ltac:(lia)).
  apply flip0_ok in H2.
  assert (G : 1 < L -> exists g, slice2_set g1 (L + 1) (2 * L) 0 (2 * L)
    (mscal (fun z => (pow_m1 s * z)%C) (map_rows fftshift (flip0 (slice2 f 1 (L + 1 - 1) 0 (2 * L))))) = Ok g /\
    is_mat g (2 * L) (2 * L) (spatial_rows L s F)).
  { intros HL1.
    assert (H3 : is_mat (map_rows fftshift (flip0 (slice2 f 1 (L + 1 - 1) 0 (2 * L)))) (2 * L - (L + 1)) (2 * L - 0)
      (fun r c => F (2 * L - (L + 1 + r)) ((c - L) mod (2 * L)))).
    { replace (2 * L - (L + 1)) with (L + 1 - 1 - 1) by lia.
      eapply map_rows_ok; [exact H2|apply vext_fftshift|reflexivity| |lia].
      intros r c Hr Hc. cbn [fftshift vlen vat]. rewrite Z.sub_0_r, half2. f_equal; lia. }
    destruct (slice2_set_ok g1 (mscal (fun z => (pow_m1 s * z)%C) (map_rows fftshift (flip0 (slice2 f 1 (L + 1 - 1) 0 (2 * L)))))
      (2 * L) (2 * L) _ _ (L + 1) (2 * L) 0 (2 * L) H1 (mscal_ok _ _ _ _ _ H3)) as (g & E & Hg); try lia.
    exists g. split; [exact E|]. eapply is_mat_ext; [exact Hg|]. intros r c Hr Hc. cbv beta. unfold spatial_rows.
    destruct (Z.ltb_spec r (L + 1)).
    - repeat zif. f_equal; lia.
    - repeat zif. unfold pow_m1. rewrite sgn_abs. f_equal. f_equal; [lia|]. f_equal. lia. }
  destruct (Z.eq_dec L 1) as [->|]; [|apply G; lia]. clear G.
  assert (H4 : is_mat (mscal (fun z => (pow_m1 s * z)%C) (map_rows fftshift (flip0 (slice2 f 1 (1 + 1 - 1) 0 (2 * 1)))))
    (2 * 1 - (1 + 1)) (2 * 1 - 0) (fun _ _ => RtoC 0)).
  { apply mscal_ok with (g := fun z => (pow_m1 s * z)%C) (F := fun _ _ => RtoC 0) in H1 || idtac.
    split; [|intros; lia]. unfold mscal, map_rows. cbn [shape mat dim0 dim1 nth]. rewrite (is_mat_dim0 _ _ _ _ H2).
    cbn [vlen fftshift row]. rewrite (is_mat_dim1 _ _ _ _ H2). reflexivity. }
  destruct (slice2_set_ok g1 _ (2 * 1) (2 * 1) _ _ (1 + 1) (2 * 1) 0 (2 * 1) H1 H4) as (g & E & Hg); try lia.
  exists g. split; [exact E|]. eapply is_mat_ext; [exact Hg|]. intros r c Hr Hc. cbv beta. unfold spatial_rows.
  repeat zif. f_equal; lia.
Qed.

Lemma upsample_ext_ok b (g : ndarray C) L G : 1 <= L -> is_mat g (2 * L) (2 * L) G ->
  exists u, upsample_by_two_mwss_ext b g L = Ok u /\
    is_mat u (4 * L) (2 * L) (fun t p =>
      csum (zrange (- L) L) (fun k => (dft (2 * L) (fun r => G r p) k / RtoC (IZR (2 * L)) * root (4 * L) (k * t))%C)).
Proof.
  intros HL Hg. unfold upsample_by_two_mwss_ext.
  assert (H1 : is_mat (map_cols (fun c => fftshift (fft_fwd c)) g) (2 * L) (2 * L)
     (fun j p => (dft (2 * L) (fun r => G r p) (j - L)%Z / RtoC (IZR (2 * L)))%C)).
  { eapply map_cols_ok; [exact Hg|apply vext_shift_fft_fwd|reflexivity| |lia].
    intros j p Hj Hp. cbv beta. replace (j - L) with (j - 2 * L / 2) by (rewrite half2; lia).
    rewrite <- shift_fft_dft by lia. reflexivity. }
  destruct (slice2_set_ok (czeros (2 * (2 * L)) (2 * L)) (slice2 (map_cols (fun c => fftshift (fft_fwd c)) g) 0 (2 * L) 0 (2 * L))
    (2 * (2 * L)) (2 * L) (fun _ _ => RtoC 0) (fun j p => (dft (2 * L) (fun r => G r p) (j - L)%Z / RtoC (IZR (2 * L)))%C)
    L (2 * L + L) 0 (2 * L)) as (g2 & E2 & H2); try lia.
  { apply is_mat_mat. }
  { assert (H := slice2_ok _ _ _ _ 0 (2 * L) 0 (2 * L) H1 ltac:(lia) ltac:(lia) ltac:(lia) ltac:(lia) ltac:(lia) ltac:(lia)).
    replace (2 * L + L - L) with (2 * L - 0) by lia. exact H. }
  rewrite E2. cbn [bind]. clear E2. eexists; split; [reflexivity|].
  eapply map_cols_ok; [exact H2|apply vext_inv_fft_shift|intros; destruct b; cbn [inv_fft_shift ifft_fwd ifftshift vmap fft_bwd vlen]; lia| |lia].
  intros t p Ht Hp. cbv beta.
  rewrite (inv_fft_shift_ok b _ (4 * L)) by (cbn [vlen]; lia). cbn [vat].
  replace (4 * L / 2) with (2 * L) by (replace (4 * L) with (2 * L * 2) by lia; rewrite Z.div_mul; lia).
  rewrite (cr_shrink _ _ (- L) L); try lia.
  - apply cr_ext. intros k Hk. repeat zif. rewrite Z.sub_0_r. replace (k + 2 * L - L - L) with k by lia. reflexivity.
  - intros k Hk Hout. repeat zif. ring.
Qed.

(** the even rows of the upsampled array are the original rows, whatever they hold *)
Lemma upsample_even L (G : Z -> Z -> C) t p : 1 <= L -> 0 <= t < 2 * L ->
  csum (zrange (- L) L) (fun k => (dft (2 * L) (fun r => G r p) k / RtoC (IZR (2 * L)) * root (4 * L) (k * (2 * t)))%C) = G t p.
Proof.
  intros HL Ht. rewrite <- (idft_dft (2 * L) (fun r => G r p) t (- L)) by lia. unfold Cdiv. rewrite <- cs_scal_r.
  replace (- L + 2 * L) with L by lia. apply cr_ext. intros k _.
  replace (4 * L) with (2 * (2 * L)) by lia. replace (k * (2 * t)) with (2 * (k * t)) by lia.
  rewrite root_scale by lia. ring.
Qed.

Section Signal2.
  Context (L s : Z) (a : Z -> Z -> C) (HL : 1 <= L).
  Context (Hpar : forall k m, - L < k < L -> - L < m < L -> a (- k) m = (RtoC (sgn (m + s)) * a k m)%C).
  Notation F2 := (F2 L a).

  Lemma spatial_F2 r p : 0 <= r < 2 * L -> 0 <= p < 2 * L ->
    spatial_rows L s (fun t p => F2 (mwss_theta L t) (mwss_phi L p)) r p = F2 (mwss_theta L r) (mwss_phi L p).
  Proof using HL Hpar.
    intros Hr Hp. unfold spatial_rows. destruct (Z.ltb_spec r (L + 1)); [reflexivity|].
    unfold ResamplingProofs.F2. rewrite <- cs_scal_l. apply cr_ext. intros m Hm.
    rewrite (Fm_mirror L s a Hpar m (mwss_theta L r)) by (try lia; rewrite <- mwss_theta_mirror by auto; f_equal; lia).
    rewrite (cis_phi_shift L HL m ((p - L) mod (2 * L)) p).
    - rewrite (sgn_add m s), RtoC_mult.
      transitivity (RtoC (sgn s * sgn s) * RtoC (sgn m * sgn m) * (Fm L a m (mwss_theta L r) * cis (IZR m * mwss_phi L p)))%C.
      + rewrite !RtoC_mult. ring.
      + rewrite !sgn_sq. ring.
    - rewrite Zminus_mod_idemp_l. replace (p - L - p) with (L + -1 * (2 * L)) by lia. apply Z.mod_add. lia.
  Qed.

  Lemma mwss_root k t : cis (IZR k * mwss_theta L t) = root (2 * L) (k * t).
  Proof using HL.
    unfold root, mwss_theta. f_equal. rewrite !mult_IZR. field. apply not_0_IZR. lia.
  Qed.

  Lemma upsample_ok b (f : ndarray C) : is_mat f (L + 1) (2 * L) (fun t p => F2 (mwss_theta L t) (mwss_phi L p)) ->
    exists g, upsample_by_two_mwss b f L s = Ok g /\
      is_mat g (2 * L + 1) (2 * L) (fun t p => F2 (mwss_theta (2 * L) t) (mwss_phi L p)).
  Proof using HL Hpar.
    intros Hf. unfold upsample_by_two_mwss. destruct (spatial_ok f L s _ HL Hf) as (g1 & -> & H1). cbn [bind].
    destruct (upsample_ext_ok b g1 L _ HL H1) as (g2 & -> & H2). cbn [bind].
    replace (4 * L) with (2 * (2 * L)) in H2 at 1 by lia.
    apply (unextend_mwss_ok b g2 (2 * L) (2 * L)); try lia.
    eapply is_mat_ext; [exact H2|]. intros t p Ht Hp. cbv beta.
    rewrite (F2_k L a). rewrite (cr_shrink (- L) L (- (L - 1)) L); try lia.
    - apply cr_ext. intros k Hk.
      rewrite (dft_trig L HL (2 * L) (fun k => Fk L a k (mwss_phi L p))); try lia.
      + assert (N := IZR_nz (2 * L) ltac:(lia)).
        replace (root (4 * L) (k * t)) with (cis (IZR k * mwss_theta (2 * L) t)).
        * field. exact N.
        * unfold root, mwss_theta. f_equal. rewrite !mult_IZR. field. apply not_0_IZR. lia.
      + intros q Hq. rewrite spatial_F2 by lia. rewrite (F2_k L a). apply cr_ext. intros j _. now rewrite mwss_root.
    - intros k Hk Hout. assert (k = - L) by lia. subst k.
      replace (dft (2 * L) (fun r => spatial_rows L s (fun t0 p0 => F2 (mwss_theta L t0) (mwss_phi L p0)) r p) (- L))
        with (RtoC 0); [unfold Cdiv; ring|]. symmetry.
      rewrite (dft_ext _ _ (fun r => F2 (mwss_theta L r) (mwss_phi L p))) by (intros; apply spatial_F2; lia).
      replace (- L) with (0 - 2 * L / 2) by (rewrite half2; lia). rewrite <- (shift_fft_dft (2 * L) _ 0) by lia.
      rewrite (shift_fft_bwd _ (fun k => if - L <? k then Fk L a k (mwss_phi L p) else RtoC 0) (2 * L)); try reflexivity; try lia.
      + rewrite half2. zif. ring.
      + intros q Hq. cbn [vat]. rewrite (F2_k L a), half2.
        rewrite (cr_shrink (- L) (- L + 2 * L) (- (L - 1)) L); try lia.
        * apply cr_ext. intros j Hj. zif. now rewrite mwss_root.
        * intros j Hj Hj'. zif. ring.
  Qed.
End Signal2.
