(** The reference inverse transforms compute the harmonic sum on their grid. *)
From Coq Require Import Reals ZifyBool Lra.
From Coquelicot Require Import Complex.
From Verif Require Import Lib.Py Lib.PyFacts Lib.Vec Lib.VecFacts Lib.Sums Lib.Cplx Lib.Arr Lib.ArrFacts Lib.MatFacts
  Model.Index Model.Samples Model.Grids Model.FFT Model.HealpixFFT Model.Turok Model.Spherical
  Spec.SamplesSpec Spec.WignerSpec Spec.SphereSpec Spec.GridSpec Spec.HealpixFFTSpec
  Proofs.SamplesProofs Proofs.GridProofs Proofs.PixelProofs Proofs.TurokProofs Proofs.HealpixDFTProofs Proofs.SphGrid.
Open Scope string_scope.
Open Scope Z_scope.

  Lemma fold_pairs (T : Z -> C) n : 0 <= n -> (forall m, 0 < m <= n -> T (- m) = Cconj (T m)) ->
    csum (zrange (- n) (n + 1)) T = (T 0%Z + csum (zrange 1 (n + 1)) (fun m => (T m + Cconj (T m))%C))%C.
  Proof.
    intros Hn H. rewrite (cr_split (- n) 0 (n + 1)) by lia. rewrite (cr_cons 0 (n + 1)) by lia.
    rewrite (cs_plus (zrange 1 (n + 1)) T). change (0 + 1) with 1.
    rewrite <- (cr_perm 1 (n + 1) (- n) 0 Z.opp T) by lia.
    rewrite (cr_ext 1 (n + 1) (fun x => T (- x)) (fun m => Cconj (T m))) by (intros; apply H; lia). ring.
  Qed.


(** ** From the orders of each ring to the samples *)
Lemma root_lon s L m p : 1 <= L -> root (per_ring s L) (m * p) = cis (IZR m * equi_longitude s L p).
Proof.
  intros HL. unfold root, equi_longitude. f_equal. rewrite mult_IZR. field. apply not_0_IZR. destruct s; cbn [per_ring]; lia.
Qed.

Definition mo_of (s : scheme) : Z := match s with MWSS | HEALPIX => 1 | _ => 0 end.
Lemma m_offset_name s : m_offset (scheme_name s) = mo_of s.
Proof. now destruct s. Qed.
Lemma lower_name s : lower (scheme_name s) = scheme_name s.
Proof. now destruct s. Qed.
Lemma is_hp_name s : is_hp (scheme_name s) = match s with HEALPIX => true | _ => false end.
Proof. now destruct s. Qed.

Lemma Re_R (a : C) : Cconj a = a -> RtoC (Re a) = a.
Proof. destruct a as [x y]. unfold Cconj, RtoC. cbn. intros E. injection E as E. f_equal. lra. Qed.
Lemma plus_conj (a : C) : (a + Cconj a)%C = RtoC (2 * Re a)%R.
Proof. destruct a as [x y]. unfold Cconj, RtoC, Cplus. cbn. f_equal; ring. Qed.

Definition phase_of (s : scheme) (nside t m : Z) : C :=
  match s with HEALPIX => cis (IZR m * hp_longitude nside t 0) | _ => RtoC 1 end.

Definition ftm_ok (s : scheme) (L nside n : Z) (reality : bool) (A : Z -> Z -> C) (ftm : ndarray C) : Prop :=
  exists F, is_mat ftm n (orders s L) F /\ forall t, 0 <= t < n ->
    (mo_of s = 1 -> F t 0 = RtoC 0) /\ forall m, - L < m < L -> (reality = true -> s <> HEALPIX -> 0 <= m) ->
      F t (m + L - 1 + mo_of s) = (phase_of s nside t m * A t m)%C.

Definition order_sum (g : grid) (L : Z) (A : Z -> Z -> C) (t p : Z) : C :=
  csum (zrange (- (L - 1)) L) (fun m => (A t m * cis (IZR m * gph g t p))%C).

Lemma vext_irfft n : vext (fun x => irfft_fwd x n).
Proof.
  intros v w (El & E). split; [reflexivity|]. cbn [irfft_fwd vlen vat]. intros p Hp. rewrite El.
  assert (Q : forall k, 0 <= k -> (if k <? vlen w then vat v k else RtoC 0) = (if k <? vlen w then vat w k else RtoC 0))
    by (intros k Hk; destruct (Z.ltb_spec k (vlen w)); [apply E; lia|reflexivity]).
  rewrite (Q 0) by lia. f_equal. f_equal; [f_equal; f_equal|].
  - apply rr_ext. intros k Hk. rewrite Q by lia. reflexivity.
  - destruct (Z.even n); [|reflexivity]. f_equal. rewrite Q; [reflexivity|].
    cbn [irfft_fwd vlen] in Hp. apply Z.div_pos; lia.
Qed.

Lemma equi_synthesis_ok s L nside n reality A ftm th : s <> HEALPIX -> 1 <= L -> 0 < n ->
  ftm_ok s L 0 n reality A ftm ->
  (reality = true -> forall t m, 0 <= t < n -> 0 <= m < L -> A t (- m) = Cconj (A t m)) ->
  exists f, ring_synthesis ftm L (scheme_name s) nside reality = Ok f /\ on_grid (equi_grid s L n th) f (order_sum (equi_grid s L n th) L A).
Proof.
  intros Hs HL Hn (F & HF & HA) HR. unfold ring_synthesis. rewrite is_hp_name, m_offset_name.
  assert (EO : orders s L = 2 * L - 1 + mo_of s) by (destruct s; cbn [orders mo_of]; lia).
  assert (EP : per_ring s L = 2 * L - 1 + mo_of s) by (destruct s; try congruence; cbn [per_ring mo_of]; lia).
  assert (M01 : mo_of s = 0 \/ mo_of s = 1) by (destruct s; cbn [mo_of]; lia).
  replace (match s with HEALPIX => true | _ => false end) with false by (destruct s; congruence).
  assert (FV : forall t m, 0 <= t < n -> - L < m < L -> (reality = true -> 0 <= m) -> F t (m + L - 1 + mo_of s) = A t m).
  { intros t m Ht Hm Hr. destruct (HA t Ht) as [_ E]. rewrite E by auto. destruct s; try congruence; cbn [phase_of]; ring. }
  destruct (Sumbool.sumbool_of_bool reality) as [Hr|Hr]; rewrite Hr; cbv iota.
  - assert (EN : nphi_equiang (Some L) (scheme_name s) = Ok (per_ring s L)) by (unfold nphi_equiang; rewrite lower_name; destruct s; try congruence; reflexivity).
    rewrite EN. cbn [bind]. eexists. split; [reflexivity|].
    rewrite (is_mat_dim0 _ _ _ _ HF), (is_mat_dim1 _ _ _ _ HF).
    assert (S2 := slice2_ok ftm n (orders s L) F 0 n (L - 1 + mo_of s) (orders s L) HF ltac:(lia) ltac:(lia) ltac:(lia) ltac:(lia) ltac:(lia) ltac:(lia)).
    assert (M : is_mat (map_rows (fun r => irfft_fwd r (per_ring s L)) (slice2 ftm 0 n (L - 1 + mo_of s) (orders s L))) n (per_ring s L)
      (order_sum (equi_grid s L n th) L A)).
    { replace (n - 0) with n in S2 by lia. eapply map_rows_ok; [exact S2|apply vext_irfft|reflexivity| |exact Hn].
      intros t p Ht Hp. unfold order_sum. cbn [irfft_fwd vlen vat equi_grid gph].
      replace (orders s L - (L - 1 + mo_of s)) with L by lia.
      replace (zrange (- (L - 1)) L) with (zrange (- (L - 1)) (L - 1 + 1)) by (f_equal; lia).
      rewrite fold_pairs; [|lia|].
      2:{ intros m Hm. rewrite HR by (auto; lia). rewrite Cconj_mult, cis_conj. do 2 f_equal. rewrite opp_IZR. ring. }
      replace (L - 1 + 1) with L by lia.
      rewrite !RtoC_plus. replace (0 <? L) with true by lia. cbv iota.
      assert (Q : forall k, 0 <= k < L -> F (0 + t) (L - 1 + mo_of s + k) = A t k).
      { intros k Hk. rewrite <- (FV t k) by lia. f_equal; lia. }
      rewrite Q by lia.
      assert (E3 : (if Z.even (per_ring s L) then
          (Re (if per_ring s L / 2 <? L then F (0 + t)%Z (L - 1 + mo_of s + per_ring s L / 2)%Z else RtoC 0) * sgn p)%R else 0%R) = 0%R).
      { destruct M01 as [M|M].
        - replace (Z.even (per_ring s L)) with false; [reflexivity|]. rewrite EP, M. replace (2 * L - 1 + 0) with (2 * (L - 1) + 1) by lia.
          rewrite Z.even_add, Z.even_mul. reflexivity.
        - replace (per_ring s L / 2 <? L) with false; [|rewrite EP, M; replace (2 * L - 1 + 1) with (L * 2) by lia; rewrite Z.div_mul by lia; lia].
          destruct (Z.even _); cbn; ring. }
      rewrite E3. rewrite Rmult_0_l, cis_0. rewrite Cmult_1_r.
      rewrite Re_R by (rewrite <- (HR Hr t 0) by lia; reflexivity).
      replace ((per_ring s L + 1) / 2) with L by (apply (Z.div_unique _ 2 _ (mo_of s)); lia).
      assert (E2 : RtoC (2 * rsum (zrange 1 L) (fun k : Z => Re ((if (k <? L)%Z then F (0 + t)%Z (L - 1 + mo_of s + k)%Z else RtoC 0) * root (per_ring s L) (k * p)%Z)%C)%R)
        = csum (zrange 1 L) (fun m => (A t m * cis (IZR m * equi_longitude s L p) + Cconj (A t m * cis (IZR m * equi_longitude s L p)))%C)).
      { rewrite <- rs_scal_l, <- csum_RtoC. apply cr_ext. intros k Hk. replace (k <? L) with true by lia. cbv iota.
        rewrite Q by lia. rewrite plus_conj, root_lon by lia. reflexivity. }
      rewrite E2. ring. }
    split; [exact (proj1 M)|]. intros t p [Ht Hp]. exact (proj2 M t p Ht Hp).
  - eexists. split; [reflexivity|].
    assert (M : is_mat (map_rows (fun r => ifft_fwd (ifftshift r)) ftm) n (per_ring s L)
      (order_sum (equi_grid s L n th) L A)).
    { eapply map_rows_ok; [exact HF|apply (vext_comp ifft_fwd ifftshift vext_ifft_fwd vext_ifftshift)| |  |exact Hn].
      - intros t. cbn [ifft_fwd ifftshift vlen]. lia.
      - intros t p Ht Hp. rewrite (ifft_ifftshift _ (per_ring s L)) by (cbn [vlen]; lia). cbn [vat]. unfold order_sum. cbn [equi_grid gph].
        assert (H2 : per_ring s L / 2 = L - 1 + mo_of s).
        { destruct M01 as [M|M]; rewrite EP, M; [symmetry; apply (Z.div_unique _ 2 _ 1); lia|].
          symmetry; apply (Z.div_unique _ 2 _ 0); lia. }
        rewrite H2. rewrite (cr_shrink _ _ (- (L - 1)) L); try lia.
        + apply cr_ext. intros m Hm. replace (m + (L - 1 + mo_of s)) with (m + L - 1 + mo_of s) by lia. rewrite FV by (try congruence; lia). now rewrite root_lon by lia.
        + intros m Hm Ho. assert (mo_of s = 1 /\ m = - L) as [M ->] by lia. replace (- L + (L - 1 + mo_of s)) with 0 by lia.
          destruct (HA t Ht) as [-> _]; [ring|exact M]. }
    split; [exact (proj1 M)|]. intros t p [Ht Hp]. exact (proj2 M t p Ht Hp).
Qed.

Lemma hp_synthesis_ok L nside reality A ftm th : 1 <= L -> 1 <= nside -> 2 * nside <= L ->
  ftm_ok HEALPIX L nside (4 * nside - 1) reality A ftm ->
  (reality = true -> forall t m, 0 <= t < 4 * nside - 1 -> 0 <= m < L -> A t (- m) = Cconj (A t m)) ->
  exists f, ring_synthesis ftm L "healpix" (Some nside) reality = Ok f /\ on_grid (hp_grid nside th) f (order_sum (hp_grid nside th) L A).
Proof.
  intros HL Hn HnL (F & HF & HA) HR. unfold ring_synthesis. change (is_hp "healpix") with true. cbv iota. cbn [need bind].
  cbn [orders mo_of] in *.
  assert (FV : forall t m, 0 <= t < 4 * nside - 1 -> - L < m < L -> at2 ftm t (m + L) = (cis (IZR m * hp_longitude nside t 0) * A t m)%C).
  { intros t m Ht Hm. rewrite (proj2 HF) by lia. destruct (HA t Ht) as [_ E]. cbn [phase_of] in E. rewrite <- (E m Hm) by congruence. f_equal. lia. }
  assert (F0 : forall t, 0 <= t < 4 * nside - 1 -> at2 ftm t 0 = RtoC 0).
  { intros t Ht. rewrite (proj2 HF) by lia. destruct (HA t Ht) as [E _]. auto. }
  assert (TB : ftm_table nside L (to_rows ftm)).
  { split; [exact (is_mat_dim0 _ _ _ _ HF)|]. intros t Ht. cbn [to_rows vat row vlen]. exact (is_mat_dim1 _ _ _ _ HF). }
  assert (E : exists ftm' f, healpix_ifft (RtoC 0) Cplus ifft_fwd irfft_fwd (to_rows ftm) L nside "numpy" reality = Ok (ftm', f) /\
    vlen f = 12 * (nside * nside) /\
    forall t p, 0 <= t < 4 * nside - 1 -> 0 <= p < ring_length nside t ->
      pixel nside t p f = ring_value (row ftm t) L (ring_length nside t) p).
  { destruct reality.
    - apply C11_real_lemma; auto; try lia. intros t Ht. split; [apply F0, Ht|]. intros m Hm. cbn [to_rows vat row].
      replace (L - m) with (- m + L) by lia. replace (L + m) with (m + L) by lia. rewrite !FV by lia.
      rewrite HR by (auto; lia). rewrite Cconj_mult, cis_conj. do 2 f_equal. rewrite opp_IZR. ring.
    - apply C11_lemma; auto; lia. }
  destruct E as (ftm' & f & -> & Hf & HV). cbn [bind]. eexists. split; [reflexivity|].
  split; [cbn [of_vec shape hp_grid gsh]; now rewrite Hf|].
  intros t p [Ht Hp]. cbn [hp_grid gn gN] in Ht, Hp. cbn [of_vec get hp_grid ge nth].
  change (vat f (ring_start (ring_length nside) t + p)) with (pixel nside t p f).
  rewrite HV by auto. unfold ring_value, order_sum. cbn [row vat hp_grid gph].
  rewrite (cr_cons 0 (2 * L)) by lia. rewrite F0 by auto. rewrite Cmult_0_l, Cplus_0_l. change (0 + 1) with 1.
  rewrite (cr_ext (- (L - 1)) L _ (fun m => (fun k => (at2 ftm t k * cis (IZR (k - L) * (2 * PI * IZR p / IZR (ring_length nside t))))%C) (m + L))).
  - rewrite (cr_shift (- (L - 1)) L L (fun k => (at2 ftm t k * cis (IZR (k - L) * (2 * PI * IZR p / IZR (ring_length nside t))))%C)).
    f_equal. f_equal; lia.
  - intros m Hm. cbv beta. rewrite FV by lia. replace (m + L - L) with m by lia.
    replace (IZR m * hp_longitude nside t p)%R
      with (IZR m * hp_longitude nside t 0 + IZR m * (2 * PI * IZR p / IZR (ring_length nside t)))%R.
    + rewrite cis_plus. ring.
    + unfold hp_longitude. pose proof (ring_length_pos nside t Hn Ht). field. apply not_0_IZR. lia.
Qed.

Set Default Proof Using "All".
Ltac dif := repeat match goal with |- context [if ?b then _ else _] => destruct b end.
Section Inv.
  Variables (flm : ndarray C) (L spin : Z) (name : string) (nside : option Z) (reality : bool) (Lo : Z)
    (g : grid) (ths : vec R).
  Hypotheses (HL : 1 <= L) (HLo : 0 <= Lo) (Hflm : shape flm = [L; 2 * L - 1])
    (G : grid_ok g name nside L ths) (Hsh : f_shape (Some L) name nside = Ok (gsh g))
    (Hang : forall t, 0 <= t < gn g -> turok_angle (gth g t))
    (Hre : reality = true -> spin = 0).

  Definition X el m : C := get flm [el; m + L - 1].
  Definition coef el m : C :=
    if reality && (m <? 0) then (RtoC (sgn m) * Cconj (X el (- m)))%C else X el m.
  Definition Ac t el m : C := (RtoC (sgn spin * elfactor el * wigner_d el m (- spin) (gth g t)) * coef el m)%C.
  Definition V t p : C := csum (el_range Lo spin L) (fun el =>
    csum (zrange (- (L - 1)) L) (fun m => (Ac t el m * cis (IZR m * gph g t p))%C)).

  Lemma els el : Z.max Lo (Z.abs spin) <= el < L -> 0 <= el < L /\ Z.abs spin <= el.
  Proof. lia. Qed.

  Lemma Ac_out t el m : el < Z.abs m -> Ac t el m = RtoC 0.
  Proof using. clear. intros H. unfold Ac. rewrite wig_out by lia. rewrite Rmult_0_r. ring. Qed.

  (** the conjugate pairs of a real signal *)
  Lemma Ac_neg t el m : reality = true -> 0 < m -> Z.abs m <= el ->
    Ac t el (- m) = Cconj (Ac t el m).
  Proof using Hre.
    clear - Hre. intros Hr Hm Hel. assert (E := Hre Hr). unfold Ac, coef. rewrite Hr.
    replace (- m <? 0) with true by lia. replace (m <? 0) with false by lia. cbn [andb].
    rewrite E. rewrite Z.opp_involutive, Cconj_mult, Cconj_R. change (- 0) with 0.
    assert (W := wig_flip el m 0 (gth g t) ltac:(lia) ltac:(lia)). change (- 0) with 0 in W. rewrite W.
    rewrite Z.sub_0_r, sgn_opp. rewrite Cmult_assoc, <- RtoC_mult. do 2 f_equal.
    transitivity (sgn 0 * elfactor el * wigner_d el m 0 (gth g t) * (sgn m * sgn m))%R; [ring|].
    rewrite sgn_sq. ring.
  Qed.

  (** the loop over the orders of one sample, in both variants *)
  Lemma read_dl dl el m t : vlen dl = 2 * L - 1 ->
    (forall m, - L < m < L -> (reality = true -> 0 <= m) -> vat dl (m + L - 1) = wigner_d el m (- spin) (gth g t)) ->
    - L < m < L -> (reality = true -> 0 <= m) -> vread dl (m + L - 1) = Ok (wigner_d el m (- spin) (gth g t)).
  Proof. intros Hl Hd Hm Hr. rewrite vread_in by lia. now rewrite Hd. Qed.
  Lemma read_X el m : 0 <= el < L -> - L < m < L -> aread flm [el; m + L - 1] = Ok (X el m).
  Proof. intros. rewrite aread_in; [reflexivity|]. rewrite Hflm. cbn [in_shape]. lia. Qed.
  Lemma coef_nonneg el m : (reality = true -> 0 <= m) -> coef el m = X el m.
  Proof using.
    clear. intros H. unfold coef. destruct (reality && (m <? 0)) eqn:E; [|reflexivity].
    destruct reality; [|discriminate]. specialize (H eq_refl). lia.
  Qed.

  Lemma inverse_direct_ok : exists f, inverse_direct flm L spin name ths nside reality Lo = Ok f /\ on_grid g f V.
  Proof.
    unfold inverse_direct. destruct (go_ph _ _ _ _ _ G) as (peq & -> & Hph). cbn [bind]. rewrite Hsh. cbn [bind].
    assert (A : CA (enum ths (fun f t theta =>
        let* phis := ring_phis name nside peq t in
        foldM (fun f el =>
          let* dl := turok_slice theta el L (- spin) reality in
          enum phis (fun f p phi =>
            let* entry := pix_entry name nside t p theta phi in
            if reality then
              let* d0 := vread dl (L - 1) in
              let* x0 := aread flm [el; L - 1] in
              let* f := caplus f entry (RtoC (m1 spin * elfactor el * d0) * x0)%C in
              foldM (fun f m =>
                let* d := vread dl (m + L - 1) in
                let* x := aread flm [el; m + L - 1] in
                let val := (RtoC (m1 spin * elfactor el) * cexp_m 1 m phi * RtoC d * x)%C in
                caplus f entry (val + Cconj val)%C)
                (zrange 1 (el + 1)) f
            else
              foldM (fun f m =>
                let* d := vread dl (m + L - 1) in
                let* x := aread flm [el; m + L - 1] in
                caplus f entry (RtoC (m1 spin * elfactor el) * cexp_m 1 m phi * RtoC d * x)%C)
                (zrange (- el) (el + 1)) f) f)
          (el_range Lo spin L) f)
        (zeros (RtoC 0) (gsh g)))
      (zeros (RtoC 0) (gsh g))
      (fun ix => csum (zrange 0 (gn g)) (fun t => csum (el_range Lo spin L) (fun el =>
         csum (zrange 0 (gN g t)) (fun p => at1 (ge g t p)
           (csum (zrange (- (L - 1)) L) (fun m => (Ac t el m * cis (IZR m * gph g t p))%C)) ix))))).
    { apply ca_enum; [exact (go_n _ _ _ _ _ G)|]. intros f t Hf Ht. destruct (Hph t Ht) as (phis & -> & Hpl & Hp). cbn [bind].
      rewrite (go_th _ _ _ _ _ G t Ht). apply ca_fold. intros f1 el Hf1 Hel0. apply els in Hel0. destruct Hel0 as [Hel Hsp].
      destruct (dl_ok (gth g t) el L spin reality Hel Hsp (Hang t Ht)) as (dl & -> & Hdl & Hd). cbn [bind].
      apply ca_enum; [exact Hpl|]. intros f2 p Hf2 Hp2. rewrite (Hp p Hp2).
      assert (IG : in_grid g t p) by (split; assumption).
      rewrite (go_e _ _ _ _ _ G t p IG). cbn [bind].
      assert (SH : forall a : ndarray C, shape a = shape f2 -> in_shape (shape a) (ge g t p)).
      { intros a Ha. rewrite Ha, Hf2, Hf1, Hf. cbn [zeros shape]. apply (go_sh _ _ _ _ _ G t p IG). }
      assert (TM : forall m, - el <= m <= el -> (reality = true -> 0 <= m) ->
        (RtoC (m1 spin * elfactor el) * cexp_m 1 m (gph g t p) * RtoC (wigner_d el m (- spin) (gth g t)) * X el m)%C
        = (Ac t el m * cis (IZR m * gph g t p))%C).
      { intros m Hm Hr. unfold Ac, cexp_m. rewrite (coef_nonneg el m Hr). change m1 with sgn. rewrite Rmult_1_l.
        rewrite !RtoC_mult. ring. }
      destruct (Sumbool.sumbool_of_bool reality) as [Hr|Hr].
      - rewrite Hr. cbv iota. 
        assert (R0 : vread dl (L - 1) = Ok (wigner_d el 0 (- spin) (gth g t))) by (apply (read_dl dl el 0 t); auto; lia).
        assert (X0 : aread flm [el; L - 1] = Ok (X el 0)) by (apply (read_X el 0); lia).
        rewrite R0. cbn [bind]. rewrite X0. cbn [bind].
        eapply ca_ext.
        + apply ca_bind; [apply ca_plus, SH; reflexivity|]. intros f3 Hf3.
          apply (ca_fold_at _ (ge g t p) (fun m => ((Ac t el m * cis (IZR m * gph g t p)) + Cconj (Ac t el m * cis (IZR m * gph g t p)))%C)).
          intros f4 m Hf4 Hm. rewrite (read_dl dl el m t) by (auto; lia). cbn [bind]. rewrite read_X by lia. cbn [bind].
          cbv zeta. rewrite TM by lia. apply ca_plus, SH. congruence.
        + intros ix. cbv beta. rewrite at1_plus. f_equal.
          rewrite (cr_shrink (- (L - 1)) L (- el) (el + 1)); try lia.
          2:{ intros m Hm Ho. rewrite Ac_out by lia. ring. }
          rewrite fold_pairs; [f_equal| lia |].
          * rewrite <- TM by lia. unfold cexp_m. rewrite Rmult_1_l, Rmult_0_l, cis_0, !RtoC_mult. ring.
          * intros m Hm. rewrite Ac_neg by (auto; lia). rewrite Cconj_mult, cis_conj. do 2 f_equal.
            rewrite opp_IZR. ring.
      - rewrite Hr. cbv iota.
        eapply ca_ext.
        + apply (ca_fold_at _ (ge g t p) (fun m => (Ac t el m * cis (IZR m * gph g t p))%C)).
          intros f4 m Hf4 Hm. rewrite (read_dl dl el m t) by (try congruence; auto; lia). cbn [bind]. rewrite read_X by lia. cbn [bind].
          rewrite TM by (try congruence; lia). apply ca_plus, SH. congruence.
        + intros ix. f_equal. symmetry. apply cr_shrink; try lia. intros m Hm Ho. rewrite Ac_out by lia. ring. }
    destruct (acc_zeros _ _ _ A) as (f & E & Hs & Hg). exists f. split; [exact E|]. split; [exact Hs|].
    intros t p IG. rewrite Hg. unfold V.
    rewrite <- (pick_entry g name nside L ths (fun t p => csum (el_range Lo spin L) (fun el =>
       csum (zrange (- (L - 1)) L) (fun m => (Ac t el m * cis (IZR m * gph g t p))%C))) t p G IG).
    apply cs_ext. intros t' _. rewrite cs_swap. apply cs_ext. intros p' _. unfold one_at.
    destruct (list_eq_dec _ _ _); [reflexivity|]. apply cs_0. reflexivity.
  Qed.

  Definition A t m : C := csum (el_range Lo spin L) (fun el => Ac t el m).
  Lemma V_A t p : V t p = order_sum g L A t p.
  Proof using.
    unfold V, order_sum, A. rewrite cs_swap. apply cs_ext. intros m _. now rewrite <- cs_scal_r.
  Qed.
  Lemma A_neg t m : reality = true -> 0 < m -> A t (- m) = Cconj (A t m).
  Proof using Hre.
    clear - Hre. intros Hr Hm. unfold A. rewrite csum_conj. apply cs_ext. intros el _.
    destruct (Z_le_dec (Z.abs m) el); [now apply Ac_neg|]. rewrite !Ac_out by lia.
    apply C_eq; cbn; ring.
  Qed.
  (** the sum of the products with the stored coefficients *)
  Lemma Ac_X t el m : (reality = true -> 0 <= m) ->
    (RtoC (m1 spin * elfactor el * wigner_d el m (- spin) (gth g t)) * X el m)%C = Ac t el m.
  Proof using. clear. intros H. unfold Ac. now rewrite coef_nonneg. Qed.

  Lemma inverse_sov_ok : exists f, inverse_sov flm L spin name ths nside reality Lo = Ok f /\ on_grid g f V.
  Proof.
    unfold inverse_sov. rewrite (go_n _ _ _ _ _ G).
    assert (S1 : CA (enum ths (fun ftm t theta =>
      foldM (fun ftm el =>
        let* dl := turok_slice theta el L (- spin) reality in
        foldM (fun ftm m =>
          let* d := vread dl (m + L - 1) in
          let* x := aread flm [el; m + L - 1] in
          caplus ftm [t; m + L - 1] (RtoC (m1 spin * elfactor el * d) * x)%C)
          (zrange (if reality then 0 else - el) (el + 1)) ftm)
        (el_range Lo spin L) ftm) (zeros (RtoC 0) [gn g; 2 * L - 1]))
      (zeros (RtoC 0) [gn g; 2 * L - 1])
      (fun ix => csum (zrange 0 (gn g)) (fun t => csum (el_range Lo spin L) (fun el =>
         csum (zrange (if reality then 0 else - el) (el + 1)) (fun m => at1 [t; m + (L - 1)] (Ac t el m) ix))))).
    { apply ca_enum; [exact (go_n _ _ _ _ _ G)|]. intros f t Hf Ht.
      rewrite (go_th _ _ _ _ _ G t Ht). apply ca_fold. intros f1 el Hf1 Hel0. apply els in Hel0. destruct Hel0 as [Hel Hsp].
      destruct (dl_ok (gth g t) el L spin reality Hel Hsp (Hang t Ht)) as (dl & -> & Hdl & Hd). cbn [bind].
      apply ca_fold. intros f2 m Hf2 Hm.
      assert (Hm' : - L < m < L /\ (reality = true -> 0 <= m)) by (destruct reality; split; intros; lia).
      rewrite (read_dl dl el m t) by (auto; lia). cbn [bind]. rewrite read_X by lia. cbn [bind].
      rewrite Ac_X by tauto. replace (m + L - 1) with (m + (L - 1)) by lia. apply ca_plus. rewrite Hf2, Hf1, Hf.
      cbn [zeros shape in_shape]. lia. }
    destruct (acc_zeros _ _ _ S1) as (ftm & -> & Hfs & Hfg). cbn [bind].
    assert (FV : forall t m, 0 <= t < gn g -> - L < m < L -> (reality = true -> 0 <= m) -> aread ftm [t; m + L - 1] = Ok (A t m)).
    { intros t m Ht Hm Hr. rewrite aread_in by (rewrite Hfs; cbn [in_shape]; lia). rewrite Hfg.
      rewrite (pick_row (gn g) (el_range Lo spin L) (fun el => if reality then 0 else - el) (fun el => el + 1) (L - 1) Ac) by auto.
      f_equal. unfold A. apply cs_ext. intros el _. replace (m + L - 1 - (L - 1)) with m by lia.
      destruct (_ && _) eqn:E; [reflexivity|]. symmetry. apply Ac_out. destruct reality; [specialize (Hr eq_refl)|]; lia. }
    rewrite Hsh. cbn [bind]. destruct (go_ph _ _ _ _ _ G) as (peq & -> & Hph). cbn [bind].
    assert (S2 : CA (enum ths (fun f t theta =>
      let* phis := ring_phis name nside peq t in
      enum phis (fun f p phi =>
        let* entry := pix_entry name nside t p theta phi in
        if reality then
          let* x0 := aread ftm [t; L - 1] in
          let* f := caplus f entry x0 in
          foldM (fun f m =>
            let* x := aread ftm [t; m + L - 1] in
            let val := (x * cexp_m 1 m phi)%C in
            caplus f entry (val + Cconj val)%C)
            (zrange 1 L) f
        else
          foldM (fun f m =>
            let* x := aread ftm [t; m + L - 1] in
            caplus f entry (x * cexp_m 1 m phi)%C)
            (zrange (- (L - 1)) L) f) f) (zeros (RtoC 0) (gsh g)))
      (zeros (RtoC 0) (gsh g))
      (fun ix => csum (zrange 0 (gn g)) (fun t => csum (zrange 0 (gN g t)) (fun p => at1 (ge g t p) (order_sum g L A t p) ix)))).
    { apply ca_enum; [exact (go_n _ _ _ _ _ G)|]. intros f t Hf Ht. destruct (Hph t Ht) as (phis & -> & Hpl & Hp). cbn [bind].
      rewrite (go_th _ _ _ _ _ G t Ht). apply ca_enum; [exact Hpl|]. intros f2 p Hf2 Hp2. rewrite (Hp p Hp2).
      assert (IG : in_grid g t p) by (split; assumption).
      rewrite (go_e _ _ _ _ _ G t p IG). cbn [bind].
      assert (SH : forall a : ndarray C, shape a = shape f2 -> in_shape (shape a) (ge g t p)).
      { intros a Ha. rewrite Ha, Hf2, Hf. cbn [zeros shape]. apply (go_sh _ _ _ _ _ G t p IG). }
      assert (CE : forall m, cexp_m 1 m (gph g t p) = cis (IZR m * gph g t p)) by (intros; unfold cexp_m; now rewrite Rmult_1_l).
      destruct (Sumbool.sumbool_of_bool reality) as [Hr|Hr]; rewrite Hr; cbv iota.
      - assert (X0 : aread ftm [t; L - 1] = Ok (A t 0)) by (apply (FV t 0); lia).
        rewrite X0. cbn [bind]. eapply ca_ext.
        + apply ca_bind; [apply ca_plus, SH; reflexivity|]. intros f3 Hf3.
          apply (ca_fold_at _ (ge g t p) (fun m => ((A t m * cis (IZR m * gph g t p)) + Cconj (A t m * cis (IZR m * gph g t p)))%C)).
          intros f4 m Hf4 Hm. rewrite (FV t m) by lia. cbn [bind]. cbv zeta. rewrite CE. apply ca_plus, SH. congruence.
        + intros ix. cbv beta. rewrite at1_plus. f_equal. unfold order_sum.
          replace (zrange (- (L - 1)) L) with (zrange (- (L - 1)) (L - 1 + 1)) by (f_equal; lia).
          rewrite fold_pairs; [|lia|].
          * replace (L - 1 + 1) with L by lia. rewrite Rmult_0_l, cis_0. ring.
          * intros m Hm. rewrite A_neg by (auto; lia). rewrite Cconj_mult, cis_conj. do 2 f_equal. rewrite opp_IZR. ring.
      - apply (ca_fold_at _ (ge g t p) (fun m => (A t m * cis (IZR m * gph g t p))%C)).
        intros f4 m Hf4 Hm. rewrite (FV t m) by (try congruence; lia). cbn [bind]. rewrite CE. apply ca_plus, SH. congruence. }
    destruct (acc_zeros _ _ _ S2) as (f & E & Hs & Hg). exists f. split; [exact E|]. split; [exact Hs|].
    intros t p IG. rewrite Hg, V_A. exact (pick_entry g name nside L ths (order_sum g L A) t p G IG).
  Qed.

  (** ** FFT methods *)
  Variables (s : scheme) (ns : Z).
  Hypotheses (Hname : name = scheme_name s)
    (Hhp : s = HEALPIX -> nside = Some ns /\ 1 <= ns /\ gn g = 4 * ns - 1 /\ 2 * ns <= L)
    (Hftm : ftm_shape (Some L) name nside = Ok [gn g; orders s L])
    (Hsyn : forall ftm, ftm_ok s L ns (gn g) reality A ftm ->
       (reality = true -> forall t m, 0 <= t < gn g -> 0 <= m < L -> A t (- m) = Cconj (A t m)) ->
       exists f, ring_synthesis ftm L name nside reality = Ok f /\ on_grid g f (order_sum g L A))
    (Hre0 : reality = true -> forall el, 0 <= el < L -> is_real (X el 0)).

  Lemma A_sym : reality = true -> forall t m, 0 <= t < gn g -> 0 <= m < L -> A t (- m) = Cconj (A t m).
  Proof using Hre Hre0 HLo.
    clear - Hre Hre0 HLo. intros Hr t m Ht Hm. destruct (Z.eq_dec m 0) as [->|]; [|apply A_neg; auto; lia].
    change (- 0) with 0. unfold A. rewrite csum_conj. apply cs_ext. intros el Hel.
    unfold el_range in Hel. apply in_zrange in Hel. rewrite <- Ac_X by lia. rewrite Cconj_mult, Cconj_R. f_equal.
    assert (I := Hre0 Hr el ltac:(lia)). unfold is_real in I. destruct (X el 0) as [x y]. cbn in I. subst y.
    unfold Cconj. cbn. f_equal. ring.
  Qed.

  Lemma mo01 : mo_of s = 0 \/ mo_of s = 1. Proof. clear. destruct s; cbn; auto. Qed.
  Lemma ord_mo : orders s L = 2 * L - 1 + mo_of s. Proof. clear. destruct s; cbn [orders mo_of]; lia. Qed.

  Lemma finish_synthesis ftm : ftm_ok s L ns (gn g) reality A ftm ->
    exists f, ring_synthesis ftm L name nside reality = Ok f /\ on_grid g f V.
  Proof.
    intros H. destruct (Hsyn ftm H A_sym) as (f & E & Hf). exists f. split; [exact E|].
    apply (on_grid_ext _ _ _ _ Hf). intros. now rewrite V_A.
  Qed.
  Definition isH : bool := match s with HEALPIX => true | _ => false end.
  Lemma isH_name : is_hp name = isH. Proof. rewrite Hname. apply is_hp_name. Qed.


  (** what degree el adds to order m of ring t *)
  Definition rowv t el m : C :=
    if (- L <? m) && (m <? L) && negb (reality && negb isH && (m <? 0)) then (phase_of s ns t m * Ac t el m)%C else RtoC 0.

  Lemma rows_ok (W : Z -> Z -> list Z -> C) ftm : shape ftm = [gn g; orders s L] ->
    (forall t c, 0 <= t < gn g -> 0 <= c < orders s L -> get ftm [t; c] = csum (zrange 0 (gn g)) (fun t' => csum (el_range Lo spin L) (fun el => W t' el [t; c]))) ->
    (forall t el t0 c, 0 <= t < gn g -> Z.max Lo (Z.abs spin) <= el < L -> 0 <= t0 < gn g -> 0 <= c < orders s L ->
       W t el [t0; c] = if t =? t0 then rowv t el (c - (L - 1 + mo_of s)) else RtoC 0) ->
    ftm_ok s L ns (gn g) reality A ftm.
  Proof.
    intros Hs Hg HW. pose proof mo01 as M01. pose proof ord_mo as OM. exists (at2 ftm). split; [now apply is_mat_self|]. intros t Ht.
    assert (VAL : forall c, 0 <= c < orders s L -> at2 ftm t c = csum (el_range Lo spin L) (fun el => rowv t el (c - (L - 1 + mo_of s)))).
    { intros c Hc. unfold at2. rewrite Hg by auto.
      rewrite <- (cr_delta 0 (gn g) t (fun t => csum (el_range Lo spin L) (fun el => rowv t el (c - (L - 1 + mo_of s))))) by auto.
      apply cr_ext. intros t' Ht'. unfold el_range.
      rewrite (cr_ext _ _ _ (fun el => if t' =? t then rowv t' el (c - (L - 1 + mo_of s)) else RtoC 0)) by (intros el Hel; apply HW; auto).
      destruct (t' =? t); [reflexivity|]. apply cr_0. reflexivity. }
    split.
    - intros M. rewrite VAL by lia. apply cs_0. intros el _. unfold rowv. now replace (- L <? 0 - (L - 1 + mo_of s)) with false by lia.
    - intros m Hm Hr. rewrite VAL by lia. unfold A. rewrite <- cs_scal_l. apply cs_ext. intros el _. unfold rowv.
      replace (m + L - 1 + mo_of s - (L - 1 + mo_of s)) with m by lia.
      replace ((- L <? m) && (m <? L)) with true by lia. cbn [andb].
      destruct (reality && negb isH && (m <? 0)) eqn:E; [|reflexivity]. exfalso.
      destruct reality; [|discriminate]. unfold isH in E. assert (s <> HEALPIX) by (intros ->; discriminate).
      specialize (Hr eq_refl H). destruct s; try congruence; cbn in E; lia.
  Qed.

  Definition Wloop t el (ix : list Z) : C :=
    csum (zrange (if reality then 0 else - el) (el + 1)) (fun m =>
      ((if reality && isH && negb (m =? 0)%Z then at1 [t; - m + L - 1 + mo_of s]%Z (Cconj (phase_of s ns t m * Ac t el m)%C) ix else RtoC 0)
       + at1 [t; m + (L - 1 + mo_of s)]%Z (phase_of s ns t m * Ac t el m)%C ix)%C).

  Lemma rowv_neg t el m : reality = true -> isH = true -> 0 < m < L ->
    Cconj (phase_of s ns t m * Ac t el m)%C = rowv t el (- m).
  Proof.
    intros Hr Hh Hm. unfold rowv. replace ((- L <? - m) && (- m <? L)) with true by lia. rewrite Hh, andb_false_r. cbn [andb negb].
    rewrite Cconj_mult. f_equal.
    - unfold isH in Hh. unfold phase_of. destruct s; try discriminate. rewrite cis_conj. f_equal. rewrite opp_IZR. ring.
    - destruct (Z_le_dec (Z.abs m) el); [symmetry; now apply Ac_neg|]. rewrite !Ac_out by lia. apply C_eq; cbn; ring.
  Qed.

  Lemma Wloop_row t el t0 c : 0 <= t < gn g -> Z.max Lo (Z.abs spin) <= el < L -> 0 <= t0 < gn g -> 0 <= c < orders s L ->
    Wloop t el [t0; c] = if t =? t0 then rowv t el (c - (L - 1 + mo_of s)) else RtoC 0.
  Proof.
    intros Ht Hel Ht0 Hc. unfold Wloop. set (mu := c - (L - 1 + mo_of s)). destruct (Z.eqb_spec t t0) as [->|N].
    - rewrite cs_plus.
      rewrite (cr_ext _ _ (fun m => at1 [t0; m + (L - 1 + mo_of s)] (phase_of s ns t0 m * Ac t0 el m)%C [t0; c])
                (fun m => if m =? mu then (phase_of s ns t0 m * Ac t0 el m)%C else RtoC 0)).
      2:{ intros m Hm. rewrite one_at2, Z.eqb_refl. cbn [andb]. now replace (m + (L - 1 + mo_of s) =? c) with (m =? mu) by lia. }
      rewrite (cr_ext _ _ (fun m => if reality && isH && negb (m =? 0) then _ else _)
                (fun m => if m =? - mu then (if reality && isH && negb (m =? 0) then Cconj (phase_of s ns t0 m * Ac t0 el m)%C else RtoC 0) else RtoC 0)).
      2:{ intros m Hm. rewrite one_at2, Z.eqb_refl. cbn [andb]. replace (- m + L - 1 + mo_of s =? c) with (m =? - mu) by lia.
          destruct (reality && isH && negb (m =? 0)); [reflexivity|]. now destruct (m =? - mu). }
      assert (D1 : csum (zrange (if reality then 0 else - el) (el + 1)) (fun m => if m =? mu then (phase_of s ns t0 m * Ac t0 el m)%C else RtoC 0)
        = if reality && (mu <? 0) then RtoC 0 else (phase_of s ns t0 mu * Ac t0 el mu)%C).
      { destruct (Z_le_dec (Z.abs mu) el).
        - destruct (reality && (mu <? 0)) eqn:E.
          + destruct reality; [|discriminate]. apply cr_0. intros m Hm. now replace (m =? mu) with false by lia.
          + apply (cr_delta _ _ mu (fun m => (phase_of s ns t0 m * Ac t0 el m)%C)). destruct reality; cbn in E; lia.
        - rewrite (Ac_out t0 el mu) by lia. rewrite cr_0; [dif; ring|]. intros m Hm. destruct reality; now replace (m =? mu) with false by lia. }
      assert (D2 : csum (zrange (if reality then 0 else - el) (el + 1)) (fun m => if m =? - mu then (if reality && isH && negb (m =? 0) then Cconj (phase_of s ns t0 m * Ac t0 el m)%C else RtoC 0) else RtoC 0)
        = if reality && isH && (mu <? 0) then rowv t0 el mu else RtoC 0).
      { destruct (reality && isH) eqn:E; cbn [andb].
        - apply andb_prop in E. destruct E as [Er Eh]. rewrite Er. destruct (Z.ltb_spec mu 0).
          + destruct (Z_le_dec (- mu) el).
            * rewrite (cr_delta 0 (el + 1) (- mu) (fun m => if negb (m =? 0) then Cconj (phase_of s ns t0 m * Ac t0 el m)%C else RtoC 0)) by lia.
              replace (negb (- mu =? 0)) with true by lia. rewrite rowv_neg by (auto; lia). now rewrite Z.opp_involutive.
            * rewrite cr_0 by (intros m Hm; now replace (m =? - mu) with false by lia). unfold rowv. rewrite Ac_out by lia.
              dif; ring.
          + apply cr_0. intros m Hm. destruct (Z.eqb_spec m (- mu)); [|reflexivity]. now replace (negb (m =? 0)) with false by lia.
        - apply cr_0. intros m Hm. now destruct (m =? - mu). }
      etransitivity; [exact (f_equal2 Cplus D2 D1)|]. unfold rowv.
      assert (MU : mu < L) by (pose proof ord_mo; unfold mu; lia).
      destruct (Z.ltb_spec (- L) mu) as [B|B].
      + replace (mu <? L) with true by lia. cbn [andb].
        destruct reality, isH, (mu <? 0); cbn [andb negb]; ring.
      + cbn [andb]. rewrite (Ac_out t0 el mu) by lia. dif; ring.
    - apply cr_0. intros m Hm. rewrite !one_at2. replace (t =? t0) with false by lia. cbn [andb]. dif; ring.
  Qed.

  Lemma inverse_sov_fft_ok : exists f, inverse_sov_fft flm L spin name ths nside reality Lo = Ok f /\ on_grid g f V.
  Proof.
    unfold inverse_sov_fft.
    assert (CHK : (if is_hp name then let* n := need nside in (if 2 * n <=? L then Ok tt else Err AssertionError) else Ok tt) = Ok tt).
    { rewrite isH_name. unfold isH. destruct s eqn:Es; try reflexivity.
      destruct (Hhp eq_refl) as (-> & _ & _ & H). cbn [need bind]. now replace (2 * ns <=? L) with true by lia. }
    rewrite CHK. cbn [bind]. rewrite Hftm. cbn [bind]. assert (MO : m_offset name = mo_of s) by (rewrite Hname; apply m_offset_name).
    rewrite MO. pose proof mo01 as M01. pose proof ord_mo as OM.
    assert (S1 : CA (enum ths (fun ftm t theta =>
      let* phi_off := (if is_hp name then let* n := need nside in Ok (p2phi_ring t 0 n) else Ok 0%R) in
      foldM (fun ftm el =>
        let* dl := turok_slice theta el L (- spin) reality in
        foldM (fun ftm m =>
          let phase := if is_hp name then cexp_m 1 m phi_off else RtoC 1 in
          let* d := vread dl (m + L - 1) in
          let* x := aread flm [el; m + L - 1] in
          let val := (RtoC (m1 spin * elfactor el * d) * x * phase)%C in
          let* ftm := (if reality && is_hp name then
                         if negb (m =? 0) then caplus ftm [t; - m + L - 1 + mo_of s] (Cconj val) else Ok ftm
                       else Ok ftm) in
          caplus ftm [t; m + L - 1 + mo_of s] val)
          (zrange (if reality then 0 else - el) (el + 1)) ftm)
        (el_range Lo spin L) ftm)
      (zeros (RtoC 0) [gn g; orders s L])) (zeros (RtoC 0) [gn g; orders s L])
      (fun ix => csum (zrange 0 (gn g)) (fun t => csum (el_range Lo spin L) (fun el => Wloop t el ix)))).
    { apply ca_enum; [exact (go_n _ _ _ _ _ G)|]. intros f t Hf Ht.
      assert (PH : exists po, (if is_hp name then let* n := need nside in Ok (p2phi_ring t 0 n) else Ok 0%R) = Ok po /\
         forall m, (if is_hp name then cexp_m 1 m po else RtoC 1) = phase_of s ns t m).
      { rewrite isH_name. unfold isH, phase_of. destruct s eqn:Es; try (eexists; split; [reflexivity|]; reflexivity).
        destruct (Hhp eq_refl) as (-> & H1 & H2 & H3). cbn [need bind]. eexists. split; [reflexivity|]. intros m. cbv beta.
        unfold cexp_m. now rewrite Rmult_1_l, p2phi_ok by lia. }
      destruct PH as (po & -> & PH). cbn [bind].
      rewrite (go_th _ _ _ _ _ G t Ht). apply ca_fold. intros f1 el Hf1 Hel0. apply els in Hel0. destruct Hel0 as [Hel Hsp].
      destruct (dl_ok (gth g t) el L spin reality Hel Hsp (Hang t Ht)) as (dl & -> & Hdl & Hd). cbn [bind].
      apply ca_fold. intros f2 m Hf2 Hm.
      assert (Hm' : - L < m < L /\ (reality = true -> 0 <= m)) by (destruct reality; split; intros; lia).
      rewrite (read_dl dl el m t) by (auto; lia). cbn [bind]. rewrite read_X by lia. cbn [bind]. cbv zeta.
      rewrite Ac_X by tauto. rewrite PH. rewrite (Cmult_comm (Ac t el m)). apply ca_bind.
      - rewrite isH_name. destruct (reality && isH); cbn [andb]; [|apply ca_ret]. destruct (negb (m =? 0)); [|apply ca_ret].
        apply ca_plus. rewrite Hf2, Hf1, Hf. cbn [zeros shape in_shape]. lia.
      - intros f3 Hf3. replace (m + L - 1 + mo_of s) with (m + (L - 1 + mo_of s)) by lia. apply ca_plus. rewrite Hf3, Hf2, Hf1, Hf.
        cbn [zeros shape in_shape]. lia. }
    cbv zeta in S1 |- *. destruct (acc_zeros _ _ _ S1) as (ftm & -> & Hfs & Hfg). cbn [bind].
    apply finish_synthesis, (rows_ok Wloop ftm); auto. apply Wloop_row.
  Qed.

  Definition ms : Z := if reality then L - 1 else 0.
  Definition valf t el i : C := (phase_of s ns t (i + ms - (L - 1)) * Ac t el (i + ms - (L - 1)) * RtoC (sgn spin))%C.
  Definition Wvec t el (ix : list Z) : C :=
    ((if reality && isH then
        (if (nth 0 ix 0%Z =? t)%Z && (mo_of s <=? nth 1 ix 0%Z)%Z && (nth 1 ix 0%Z <? L - 1 + mo_of s)%Z
         then Cconj (valf t el (L - 1 - (nth 1 ix 0 - mo_of s))%Z) else RtoC 0)
      else RtoC 0)
     + (if (nth 0 ix 0%Z =? t)%Z && (ms + mo_of s <=? nth 1 ix 0%Z)%Z && (nth 1 ix 0%Z <? 2 * L - 1 + mo_of s)%Z
        then valf t el (nth 1 ix 0 - (ms + mo_of s))%Z else RtoC 0))%C.

  Lemma ms_bounds : 0 <= ms <= L - 1. Proof. unfold ms. destruct reality; lia. Qed.

  Lemma Wvec_row t el t0 c : 0 <= t < gn g -> Z.max Lo (Z.abs spin) <= el < L -> 0 <= t0 < gn g -> 0 <= c < orders s L ->
    (Wvec t el [t0; c] * RtoC (m1 spin))%C = if t =? t0 then rowv t el (c - (L - 1 + mo_of s)) else RtoC 0.
  Proof.
    intros Ht Hel Ht0 Hc. unfold Wvec. cbn [nth]. change m1 with sgn. rewrite (Z.eqb_sym t0 t).
    pose proof mo01 as M01. pose proof ord_mo as OM. pose proof ms_bounds as MB.
    destruct (Z.eqb_spec t t0) as [->|N]; cbn [andb]; [|dif; ring].
    set (mu := c - (L - 1 + mo_of s)).
    assert (SQ : (RtoC (sgn spin) * RtoC (sgn spin))%C = RtoC 1) by (rewrite <- RtoC_mult, sgn_sq; reflexivity).
    assert (V1 : valf t0 el (c - (ms + mo_of s)) = (phase_of s ns t0 mu * Ac t0 el mu * RtoC (sgn spin))%C).
    { unfold valf. replace (c - (ms + mo_of s) + ms - (L - 1)) with mu by (unfold mu; lia). reflexivity. }
    rewrite V1.
    assert (V2 : reality = true -> valf t0 el (L - 1 - (c - mo_of s)) = (phase_of s ns t0 (- mu) * Ac t0 el (- mu) * RtoC (sgn spin))%C).
    { intros Hr. unfold valf, ms. rewrite Hr. replace (L - 1 - (c - mo_of s) + (L - 1) - (L - 1)) with (- mu) by (unfold mu; lia). reflexivity. }
    replace (mo_of s <=? c) with (- L <? mu) by (unfold mu; lia). replace (c <? L - 1 + mo_of s) with (mu <? 0) by (unfold mu; lia).
    replace (c <? 2 * L - 1 + mo_of s) with (mu <? L) by (unfold mu; lia). replace (mu <? L) with true by (unfold mu; lia).
    rewrite andb_true_r.
    assert (V3 : reality = true -> isH = true -> - L < mu < 0 ->
       Cconj (valf t0 el (L - 1 - (c - mo_of s))) = (rowv t0 el mu * RtoC (sgn spin))%C).
    { intros Hr Hh B. rewrite V2 by auto. rewrite Cconj_mult, Cconj_R, rowv_neg by (auto; lia). now rewrite Z.opp_involutive. }
    unfold rowv at 1. replace (mu <? L) with true by (unfold mu; lia). rewrite andb_true_r.
    destruct (Sumbool.sumbool_of_bool reality) as [Hr|Hr].
    - replace (ms + mo_of s <=? c) with (negb (mu <? 0)) by (unfold mu, ms; rewrite Hr; lia). rewrite Hr. cbn [andb].
      destruct (Sumbool.sumbool_of_bool isH) as [Hh|Hh].
      + rewrite Hh. cbn [andb negb]. rewrite andb_true_r.
        destruct (Z.ltb_spec (- L) mu), (Z.ltb_spec mu 0); cbn [andb negb]; try ring.
        * rewrite V3 by (auto; lia). unfold rowv. replace ((- L <? mu) && (mu <? L)) with true by lia. rewrite Hh, andb_false_r. cbn [andb negb].
          rewrite Cplus_0_r, <- Cmult_assoc, SQ. ring.
        * rewrite Cplus_0_l, <- Cmult_assoc, SQ. ring.
        * lia.
      + rewrite Hh. cbn [andb negb].
        destruct (Z.ltb_spec (- L) mu), (Z.ltb_spec mu 0); cbn [andb negb]; try ring; try lia.
        rewrite Cplus_0_l, <- Cmult_assoc, SQ. ring.
    - replace (ms + mo_of s <=? c) with (- L <? mu) by (unfold mu, ms; rewrite Hr; lia). rewrite Hr. cbn [andb negb]. rewrite andb_true_r.
      destruct (- L <? mu); [|ring]. rewrite Cplus_0_l, <- Cmult_assoc, SQ. ring.
  Qed.

  Lemma inverse_vectorized_ok : exists f, inverse_sov_fft_vectorized flm L spin name ths nside reality Lo = Ok f /\ on_grid g f V.
  Proof.
    unfold inverse_sov_fft_vectorized. rewrite Hftm. cbn [bind].
    assert (MO : m_offset name = mo_of s) by (rewrite Hname; apply m_offset_name).
    rewrite MO. pose proof mo01 as M01. pose proof ord_mo as OM. pose proof ms_bounds as MB.
    assert (S1 : CA (enum ths (fun ftm t theta =>
      let* phase := ring_phase L t name nside false reality in
      foldM (fun ftm el =>
        let* dl := turok_slice theta el L (- spin) reality in
        let ms := if reality then L - 1 else 0 in
        let dls := vslice dl ms (vlen dl) in
        let* fl := row_slice flm el ms (dim1 flm) in
        let* v := vmul (vmap (fun d => RtoC (elfactor el * d)) dls) fl in
        let* val := vrphase v phase in
        let* ftm := (if reality && is_hp name
                     then row_op Cplus ftm t (mo_of s) (L - 1 + mo_of s) (vrev (vmap Cconj (vslice val 1 (vlen val))))
                     else Ok ftm) in
        row_op Cplus ftm t (ms + mo_of s) (2 * L - 1 + mo_of s) val)
        (el_range Lo spin L) ftm)
      (zeros (RtoC 0) [gn g; orders s L])) (zeros (RtoC 0) [gn g; orders s L])
      (fun ix => csum (zrange 0 (gn g)) (fun t => csum (el_range Lo spin L) (fun el => Wvec t el ix)))).
    { apply ca_enum; [exact (go_n _ _ _ _ _ G)|]. intros f t Hf Ht.
      assert (PH : exists po, ring_phase L t name nside false reality = Ok po /\
        forall v : vec C, vlen v = 2 * L - 1 - ms -> exists w, vrphase v po = Ok w /\ vlen w = vlen v /\
          forall i, 0 <= i < vlen v -> vat w i = (vat v i * phase_of s ns t (i + ms - (L - 1)))%C).
      { unfold ring_phase. rewrite isH_name. unfold isH, phase_of. destruct s eqn:Es.
        1-4: exists None; split; [reflexivity|]; intros v Hv; exists v; split; [reflexivity|]; split; [reflexivity|]; intros; ring.
        destruct (Hhp eq_refl) as (-> & H1 & H2 & H3). cbn [need bind]. eexists. split; [reflexivity|].
        intros v Hv. destruct (phase_shift_ok L ns t false reality HL H1 ltac:(lia)) as [Hpl Hpv]. cbn zeta in Hpl, Hpv.
        unfold vrphase, vmul. assert (EL : vlen v = vlen (ring_phase_shift_hp L t ns false reality)) by (rewrite Hpl, Hv; unfold ms; destruct reality; lia).
        rewrite EL, Z.eqb_refl. eexists. split; [reflexivity|]. cbn [vlen vat]. split; [reflexivity|]. intros i Hi. f_equal.
        rewrite Hpl in Hi. replace i with (i + ms - (L - 1) - (if reality then 0 else 1 - L)) at 1 by (unfold ms; destruct reality; lia).
        rewrite Hpv by (unfold ms; destruct reality; lia). f_equal. unfold shift_sign. ring. }
      destruct PH as (po & -> & PH). cbn [bind].
      rewrite (go_th _ _ _ _ _ G t Ht). apply ca_fold. intros f1 el Hf1 Hel0. apply els in Hel0. destruct Hel0 as [Hel Hsp].
      destruct (dl_ok (gth g t) el L spin reality Hel Hsp (Hang t Ht)) as (dl & -> & Hdl & Hd). cbn [bind].
      cbv zeta. fold ms. unfold dim1. rewrite Hflm. cbn [nth]. unfold row_slice, dim0. rewrite Hflm. cbn [nth].
      rewrite norm_index_in by lia. cbn [bind].
      assert (RL : vlen (row flm el) = 2 * L - 1) by (cbn [row vlen]; unfold dim1; rewrite Hflm; reflexivity).
      rewrite (vslice_in dl ms (vlen dl)), (vslice_in (row flm el) ms (2 * L - 1)) by lia.
      unfold vmul at 1. cbn [vmap vlen]. rewrite Hdl, Z.eqb_refl. cbn [bind].
      edestruct PH as (val & -> & HVL & HV); [reflexivity|]. cbn [vlen vat] in HVL, HV. cbn [bind].
      assert (VV : forall i, 0 <= i < 2 * L - 1 - ms -> vat val i = valf t el i).
      { intros i Hi. rewrite HV by auto. unfold valf. cbn [vmap vat].
        replace (ms + i) with (i + ms - (L - 1) + L - 1) by lia. rewrite Hd by (unfold ms in *; destruct reality; intros; lia).
        change (vat (row flm el) (i + ms - (L - 1) + L - 1)) with (X el (i + ms - (L - 1))).
        rewrite <- Ac_X by (unfold ms in *; destruct reality; intros; lia). change m1 with sgn.
        transitivity (RtoC (elfactor el * wigner_d el (i + ms - (L - 1)) (- spin) (gth g t)) * X el (i + ms - (L - 1))
           * phase_of s ns t (i + ms - (L - 1)) * (RtoC (sgn spin * sgn spin)))%C; [rewrite sgn_sq; ring|]. rewrite !RtoC_mult. ring. }
      eapply ca_ext.
      - apply ca_bind with (c := fun ix => if reality && isH then
           (if (nth 0 ix 0 =? t) && (mo_of s <=? nth 1 ix 0) && (nth 1 ix 0 <? L - 1 + mo_of s)
            then Cconj (valf t el (L - 1 - (nth 1 ix 0 - mo_of s))%Z) else RtoC 0) else RtoC 0).
        + rewrite isH_name. destruct (reality && isH) eqn:RH; [|apply ca_ret].
          assert (Hr : reality = true) by (now destruct reality).
          assert (MS : ms = L - 1) by (unfold ms; now rewrite Hr).
          rewrite (vslice_in val 1 (vlen val)) by lia.
          eapply ca_ext; [apply (row_acc f1 (gn g) (orders s L)); try lia; [rewrite Hf1, Hf; reflexivity|cbn [vrev vmap vlen]; lia]|].
          intros ix. cbv beta. destruct (_ && _ && _) eqn:E; [|reflexivity]. cbn [vrev vmap vlen vat]. rewrite HVL.
          rewrite VV by lia. do 2 f_equal. lia.
        + intros f3 Hf3. apply (row_acc f3 (gn g) (orders s L)); try lia. rewrite Hf3, Hf1, Hf. reflexivity.
      - intros ix. cbv beta. unfold Wvec. f_equal. destruct (_ && _ && _) eqn:E; [|reflexivity]. rewrite VV by lia. reflexivity. }
    cbv zeta in S1 |- *. destruct (acc_zeros _ _ _ S1) as (ftm & -> & Hfs & Hfg). cbn [bind].
    assert (MF : is_mat (mscal (fun z => (z * RtoC (m1 spin))%C) ftm) (gn g) (orders s L) (fun r c => (at2 ftm r c * RtoC (m1 spin))%C))
      by (exact (mscal_ok (fun z => (z * RtoC (m1 spin))%C) ftm (gn g) (orders s L) (at2 ftm) (is_mat_self ftm _ _ Hfs))).
    apply finish_synthesis, (rows_ok (fun t el ix => (Wvec t el ix * RtoC (m1 spin))%C)).
    - exact (proj1 MF).
    - intros t c Ht Hc. etransitivity; [exact (proj2 MF t c Ht Hc)|]. unfold at2. rewrite Hfg, <- cs_scal_r.
      apply cs_ext. intros t' _. now rewrite <- cs_scal_r.
    - apply Wvec_row.
  Qed.
End Inv.
