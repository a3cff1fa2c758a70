(** The weights of the mwss rule in rounded arithmetic. *)
From Coq Require Import Reals Lra Lia ZifyBool.
From Coquelicot Require Import Complex.
From Verif Require Import Lib.Py Lib.PyFacts Lib.Vec Lib.VecFacts Lib.Sums Lib.Cplx Lib.Arr Lib.MatFacts Model.Samples Model.FFT Model.Quadrature Model.RisboFloat Model.PrecomputeFloat
  Model.ForwardFloat Model.ForwardMWFloat Spec.SamplesSpec Spec.SphereSpec Spec.RoundingSpec Spec.ForwardFloatSpec Proofs.SpectralBound Proofs.QuadProofs Proofs.FloatInverse Proofs.CBackendBound.
Open Scope R_scope.

Lemma Cmod_Ci : Cmod Ci = 1.
Proof. unfold Cmod, Ci. cbn [fst snd]. replace (0 ^ 2 + 1 ^ 2) with 1 by ring. apply sqrt_1. Qed.
Lemma imag (x y : R) : Cmod ((0, x) - (0, y))%C = Rabs (x - y) /\ Cmod (0, y) = Rabs y.
Proof.
  assert (G : forall z : R, Cmod (0, z) = Rabs z). { intros z. replace (0, z) with (Ci * RtoC z)%C by (apply C_eq; cbn; ring). rewrite Cmod_mult, Cmod_Ci, Cmod_R. ring. }
  split; [|apply G]. rewrite <- G. f_equal. apply C_eq; cbn; ring.
Qed.
Lemma rr_period n a (f : Z -> R) : (0 <= n)%Z -> (forall x, f (x + n)%Z = f x) -> rsum (zrange a (a + n)) f = rsum (zrange 0 n) f.
Proof. exact (gr_period _ _ _ _ _ _ RTheory n a f). Qed.
(** ** The size of the Fourier coefficients of the measure *)
Lemma mw_size_even k : (2 <= k)%Z -> Cmod (mw_weights k) <= / IZR (k - 1) - / IZR (k + 1).
Proof.
  intros Hk. assert (1 <= IZR (k - 1)) by (apply IZR_le; lia). assert (E : IZR (k + 1) = IZR (k - 1) + 2) by (rewrite minus_IZR, plus_IZR; ring).
  assert (P : 0 <= / IZR (k - 1) - / IZR (k + 1)) by (assert (/ IZR (k + 1) <= / IZR (k - 1)) by (apply Rinv_le_contravar; lra); lra).
  destruct (Z.even k) eqn:Ek.
  - rewrite mw_even by exact Ek. rewrite Cmod_R.
    assert (M : IZR (1 - k ^ 2) = - (IZR (k - 1) * IZR (k + 1))) by (rewrite <- mult_IZR, <- opp_IZR; f_equal; ring). rewrite M, E.
    set (a := IZR (k - 1)) in *. replace (2 / - (a * (a + 2))) with (- (/ a - / (a + 2))) by (field; lra). rewrite Rabs_Ropp. rewrite E in P. rewrite Rabs_right; lra.
  - rewrite mw_odd by (auto; lia). rewrite Cmod_0. exact P.
Qed.
Lemma mw_size_half K : (2 <= K)%Z -> rsum (zrange 1 K) (fun k => Cmod (mw_weights k)) <= 7 / 2 - / IZR (K - 1) - / IZR K.
Proof.
  intros HK. replace K with ((K - 2) + 2)%Z by lia. assert (H0 : (0 <= K - 2)%Z) by lia. revert H0. generalize (K - 2)%Z. clear K HK. intros n Hn.
  pattern n. apply natlike_ind; [| |exact Hn]; clear n Hn.
  - rewrite rr_cons, zrange_nil by lia. cbn [suml fold_right map]. change (IZR (0 + 2 - 1)) with 1. change (IZR (0 + 2)) with 2.
    assert (Cmod (mw_weights 1) = PI / 2).
    { assert (E : mw_weights 1 = (Ci * RtoC (PI / 2))%C) by (unfold mw_weights; apply C_eq; cbn; field). rewrite E, Cmod_mult, Cmod_Ci, Cmod_R, Rabs_right; [ring|]. pose proof PI_RGT_0. lra. }
    rewrite H. pose proof PI_4. cbn. lra.
  - intros n Hn IH. unfold Z.succ. rewrite (rr_split 1 (n + 2) (n + 1 + 2)) by lia. rewrite (rr_cons (n + 2)), (zrange_nil (n + 2 + 1)) by lia. cbn [suml fold_right map].
    assert (S := mw_size_even (n + 2) ltac:(lia)). replace (n + 1 + 2 - 1)%Z with (n + 2)%Z by lia. replace (n + 1 + 2)%Z with (n + 2 + 1)%Z by lia.
    eapply Rle_trans; [apply Rplus_le_compat; [exact IH|rewrite Rplus_0_r; exact S]|]. lra.
Qed.
Lemma mw_size N : (1 <= N)%Z -> rsum (zrange (- (N - 1)) N) (fun k => Cmod (mw_weights k)) <= 9.
Proof.
  intros HN. assert (M0 : Cmod (mw_weights 0) = 2) by (unfold mw_weights; cbn; rewrite Cmod_R, Rabs_right; lra).
  destruct (Z.eq_dec N 1) as [->|]. { rewrite rr_cons, zrange_nil by lia. cbn [suml fold_right map]. change (- (1 - 1))%Z with 0%Z. rewrite M0. cbn. lra. }
  rewrite (rr_split (- (N - 1)) 0 N), (rr_cons 0) by lia. rewrite M0.
  assert (H := mw_size_half N ltac:(lia)). assert (1 <= IZR (N - 1)) by (apply IZR_le; lia). assert (1 <= IZR N) by (apply IZR_le; lia).
  assert (0 < / IZR (N - 1)) by (apply Rinv_0_lt_compat; lra). assert (0 < / IZR N) by (apply Rinv_0_lt_compat; lra).
  assert (E : rsum (zrange (- (N - 1)) 0) (fun k => Cmod (mw_weights k)) = rsum (zrange 1 N) (fun k => Cmod (mw_weights k))).
  { rewrite <- (rr_rev 1 N). rewrite (rr_ext 1 N _ (fun k => (fun j => Cmod (mw_weights j)) (k + - N)%Z)).
    - rewrite (rr_shift 1 N (- N) (fun j => Cmod (mw_weights j))). do 2 f_equal; lia.
    - intros k Hk. cbv beta. replace (1 + N - 1 - k)%Z with (- (k + - N))%Z by lia. rewrite mw_opp. unfold Cmod, Cconj. cbn [fst snd]. f_equal. ring. }
  rewrite E. change (0 + 1)%Z with 1%Z. lra.
Qed.

(** one sample's share of the rule at band-limit L *)
Definition mwss_share (L : Z) : R := 9 * PI / (2 * (IZR L * IZR L)).

Section Float.
  Variables (A : arith) (u eta : R).
  Hypothesis HA : rounded A u eta.
  Let u0 : 0 <= u := rd_u _ _ _ HA.
  Let e0 : 0 <= eta := rd_eta _ _ _ HA.
  Hypothesis Hu : u <= / 1000.
  Hypothesis He : 4 * eta <= u.

  Lemma mw_coeff_err k : Cmod (mf_mw_weights A k - mw_weights k)%C <= 3 * u * Cmod (mw_weights k) + 2 * eta.
  Proof.
    assert (HP : forall s, s = 1 \/ s = -1 -> Rabs (fdiv A (s * fpi A) 2 - s * (PI / 2)) <= 3 * u * (PI / 2) + 2 * eta).
    { intros s Hs. pose proof (rd_pi _ _ _ HA) as MP. pose proof PI_4. pose proof PI2_3_2. pose proof (rd_div _ _ _ HA (s * fpi A) 2 ltac:(lra)) as M.
      set (P := fpi A) in *. assert (PB : Rabs P <= 11 / 10 * PI). { replace P with ((P - PI) + PI) by ring. eapply Rle_trans; [apply Rabs_triang|]. rewrite (Rabs_right PI) in * by lra. nra. }
      assert (SA : Rabs s = 1) by (destruct Hs as [->| ->]; unfold Rabs; destruct (Rcase_abs _); lra).
      replace (fdiv A (s * P) 2 - s * (PI / 2)) with ((fdiv A (s * P) 2 - s * P / 2) + s * ((P - PI) / 2)) by field. eapply Rle_trans; [apply Rabs_triang|].
      rewrite (Rabs_mult s), SA. unfold Rdiv in *. rewrite !Rabs_mult, SA, (Rabs_right (/ 2)) in * by lra.
      assert (u * (1 * Rabs P * / 2) <= u * (11 / 10 * PI * / 2)) by (apply Rmult_le_compat_l; lra). assert (0 <= u * PI) by (apply Rmult_le_pos; lra). lra. }
    assert (ZZ : Cmod (RtoC 0 - RtoC 0)%C <= 3 * u * Cmod (RtoC 0) + 2 * eta) by (rewrite Cmod_0; replace (RtoC 0 - RtoC 0)%C with (RtoC 0) by ring; rewrite Cmod_0; lra).
    assert (P0 := PI_RGT_0).
    unfold mf_mw_weights, mw_weights. destruct (k =? 1)%Z; [|destruct (k =? -1)%Z; [|destruct (k mod 2 =? 0)%Z eqn:Ek; [|exact ZZ]]].
    - assert (HI := imag (fdiv A (fpi A) 2) (PI / 2)). specialize (HP 1 (or_introl eq_refl)). rewrite !Rmult_1_l in HP.
      match goal with |- Cmod (_ - ?y)%C <= _ => replace y with (0, PI / 2) by (apply C_eq; cbn; field) end. rewrite (proj1 HI), (proj2 HI), (Rabs_right (PI / 2)) by lra. lra.
    - assert (HI := imag (fdiv A (- fpi A) 2) (- (PI / 2))). specialize (HP (-1) (or_intror eq_refl)).
      replace (-1 * fpi A) with (- fpi A) in HP by ring. replace (-1 * (PI / 2)) with (- (PI / 2)) in HP by ring.
      match goal with |- Cmod (_ - ?y)%C <= _ => replace y with (0, - (PI / 2)) by (apply C_eq; cbn; field) end.
      rewrite (proj1 HI), (proj2 HI), Rabs_Ropp, (Rabs_right (PI / 2)) by lra. lra.
    - assert (N0 : IZR (1 - k ^ 2) <> 0).
      { intros H. apply eq_IZR in H. assert (k = 1 \/ k = -1)%Z as [-> | ->] by nia; discriminate. }
      pose proof (rd_div _ _ _ HA 2 (IZR (1 - k ^ 2)) N0) as M. set (x := fdiv A _ _) in *.
      rewrite <- RtoC_minus, !Cmod_R. pose proof (Rabs_pos (2 / IZR (1 - k ^ 2))). nra.
  Qed.

  Section Rule.
    Variables (fft : vec C -> vec C) (N : Z) (eps : R).
    Hypothesis HN : (1 <= N)%Z.
    Hypothesis HE : IZR (2 * N) * eta <= u.
    Hypothesis Heps : 0 <= eps <= / 20.
    Hypothesis HF : fft_accurate fft (2 * N) eps.
    Let H := / IZR (2 * N).
    Lemma rule_H : 0 < H /\ eta <= H * u /\ IZR (2 * N) * H = 1 /\ 2 <= IZR (2 * N).
    Proof.
      assert (2 <= IZR (2 * N)) by (apply IZR_le; lia). unfold H. assert (0 < / IZR (2 * N)) by (apply Rinv_0_lt_compat; lra). split; [assumption|].
      assert (E : IZR (2 * N) * / IZR (2 * N) = 1) by (apply Rinv_r; lra). split; [|split; assumption].
      apply (Rmult_le_compat_l (/ IZR (2 * N))) in HE; [|lra]. rewrite <- Rmult_assoc, (Rmult_comm (/ _)), E, Rmult_1_l in HE. exact HE.
    Qed.
    Lemma equi_small x : Rabs (equi_weight N (2 * N) x) <= 9 * H.
    Proof.
      destruct rule_H as (H0 & _). unfold equi_weight, Rdiv. fold H. rewrite Rabs_mult, (Rabs_right H) by lra. apply Rmult_le_compat_r; [lra|].
      eapply Rle_trans; [apply part_le|]. eapply Rle_trans; [|exact (mw_size N HN)]. apply csum_le. intros k Hk. rewrite Cmod_mult, Cmod_cis. lra.
    Qed.

    (** the transformed coefficients *)
    Lemma transform_near (w : vec C) t : vlen w = (2 * N)%Z -> (forall j, (0 <= j < 2 * N)%Z -> vat w j = if (j =? 0)%Z then RtoC 0 else mf_mw_weights A (j - N)) -> (0 <= t < 2 * N)%Z ->
      vlen (fft (ifftshift w)) = (2 * N)%Z /\
      Cmod (vat (fft (ifftshift w)) t - csum (zrange (- (N - 1)) N) (fun k => mw_weights k * cis (- (IZR k * mwss_theta N t))))%C <= 29 * u + 903 / 100 * eps.
    Proof.
      intros Hl Hw Ht. destruct (HF (ifftshift w)) as [Fl FE]; [exact Hl|]. split; [exact Fl|]. specialize (FE t Ht).
      destruct rule_H as (H0 & HU & HI & H2).
      set (err := fun k => (mf_mw_weights A k - mw_weights k)%C).
      assert (S1 : rsum (zrange (- (N - 1)) N) (fun k => Cmod (err k)) <= 29 * u).
      { eapply Rle_trans; [apply rr_le; intros k Hk; apply mw_coeff_err|]. rewrite rs_plus, rs_scal_l. replace (rsum (zrange (- (N - 1)) N) (fun _ => 2 * eta)) with (IZR (2 * N - 1) * (2 * eta)).
        2:{ rewrite <- (sum_const (2 * N - 1)) by lia. etransitivity; [exact (rr_shift 0 (2 * N - 1) (- (N - 1)) (fun _ => 2 * eta))|]. do 2 f_equal; lia. } pose proof (mw_size N HN) as M. rewrite minus_IZR. nra. }
      (* the vector, unshifted *)
      assert (NZ : (2 * N / 2 = N)%Z) by (rewrite Z.mul_comm; apply Z.div_mul; lia).
      assert (P : forall g : C -> R, g (RtoC 0) = 0 -> rsum (zrange 0 (2 * N)) (fun p => g (vat (ifftshift w) p)) = rsum (zrange (- (N - 1)) N) (fun k => g (mf_mw_weights A k))).
      { intros g G0. cbn [ifftshift vat]. rewrite Hl, NZ.
        rewrite <- (rr_period (2 * N) (- N) (fun p => g (vat w ((p + N) mod (2 * N))%Z))).
        - replace (- N + 2 * N)%Z with N by lia. rewrite rr_cons by lia. rewrite Hw by (apply Z.mod_pos_bound; lia). rewrite Z.mod_small by lia. replace (- N + N =? 0)%Z with true by lia.
          rewrite G0, Rplus_0_l. replace (- N + 1)%Z with (- (N - 1))%Z by lia. apply rr_ext. intros k Hk. rewrite Z.mod_small by lia. rewrite Hw by lia.
          replace (k + N =? 0)%Z with false by lia. do 2 f_equal. lia.
        - lia.
        - intros x. do 2 f_equal. replace (x + 2 * N + N)%Z with (x + N + 1 * (2 * N))%Z by lia. apply Z.mod_add. lia. }
      assert (S2 : rsum (zrange 0 (2 * N)) (fun p => Cmod (vat (ifftshift w) p)) <= 903 / 100).
      { rewrite (P Cmod Cmod_0). apply Rle_trans with (rsum (zrange (- (N - 1)) N) (fun k => Cmod (err k) + Cmod (mw_weights k))).
        { apply rr_le. intros k Hk. assert (EE : mf_mw_weights A k = (err k + mw_weights k)%C) by (unfold err; ring). rewrite EE. apply Cmod_triangle. }
        rewrite rs_plus. pose proof (mw_size N HN) as M. lra. }
      assert (E : csum (zrange 0 (2 * N)) (fun p => vat (ifftshift w) p * cis (- (2 * PI * IZR t * IZR p / IZR (2 * N))))%C =
        csum (zrange (- (N - 1)) N) (fun k => mf_mw_weights A k * cis (- (IZR k * mwss_theta N t)))%C).
      { transitivity (vat (fft_bwd (ifftshift w)) t).
        - cbn [fft_bwd vat]. cbn [ifftshift vlen]. rewrite Hl. apply cr_ext. intros p Hp. f_equal. unfold root. f_equal. rewrite opp_IZR, (mult_IZR t p). unfold Rdiv. ring.
        - rewrite (fft_ifftshift w (2 * N)) by (auto; lia). rewrite NZ. replace (- N + 2 * N)%Z with N by lia. rewrite cr_cons by lia.
          replace (- N + 1)%Z with (- (N - 1))%Z by lia. rewrite Hw by lia. replace (- N + N =? 0)%Z with true by lia. rewrite Cmult_0_l, Cplus_0_l.
          apply cr_ext. intros k Hk. rewrite Hw by lia. replace (k + N =? 0)%Z with false by lia. f_equal; [f_equal; lia|]. unfold root. f_equal. unfold mwss_theta.
          rewrite opp_IZR, !mult_IZR. field. apply (IZR_neq N 0). lia. }
      rewrite E in FE. set (z := vat (fft (ifftshift w)) t) in *. set (s1 := csum _ (fun k => mf_mw_weights A k * _)%C) in *. set (s2 := csum _ _).
      assert (D : Cmod (s1 - s2)%C <= 29 * u).
      { eapply Rle_trans; [|exact S1]. unfold s1, s2. rewrite <- cs_minus. apply csum_le. intros k Hk.
        match goal with |- Cmod ?a <= _ => replace a with (err k * cis (- (IZR k * mwss_theta N t)))%C by (unfold err; ring) end. rewrite Cmod_mult, Cmod_cis. lra. }
      replace (z - s2)%C with ((z - s1) + (s1 - s2))%C by ring. eapply Rle_trans; [apply Cmod_triangle|].
      assert (eps * rsum (zrange 0 (2 * N)) (fun p => Cmod (vat (ifftshift w) p)) <= eps * (903 / 100)) by (apply Rmult_le_compat_l; lra). lra.
    Qed.

    Lemma mf_add_slice_ok q s e c w : (0 <= s)%Z -> (s <= e)%Z -> (e <= vlen q)%Z -> vlen w = (e - s)%Z ->
      exists v, mf_add_slice A q s e c w = Ok v /\ vlen v = vlen q /\
        forall j, vat v j = if ((s <=? j) && (j <? e))%Z then fadd A (vat q j) (fmul A c (vat w (j - s))) else vat q j.
    Proof.
      intros Hs He' Hq Hw. unfold mf_add_slice. rewrite vslice_in by lia. cbn [vlen vat]. rewrite Hw, Z.eqb_refl. cbn [negb].
      rewrite vassign_in by (cbn; lia). eexists. split; [reflexivity|]. cbn [vlen vat]. split; [reflexivity|].
      intros j. replace (s + (e - s))%Z with e by lia. destruct ((s <=? j) && (j <? e))%Z; [|reflexivity].
      replace (s + (j - s))%Z with j by lia. reflexivity.
    Qed.

    Definition mwss_exact (t : Z) : R := equi_weight N (2 * N) (mwss_theta N t) +
      (if ((1 <=? t) && (t <? N))%Z then equi_weight N (2 * N) (mwss_theta N (2 * N - t)) else 0).
    Lemma theta_only_near : exists q, mf_mwss_theta_only A fft N 0 = Ok q /\ vlen q = (N + 1)%Z /\
      forall t, (0 <= t <= N)%Z -> Rabs (vat q t - mwss_exact t) <= H * (112 * u + 181 / 10 * eps) /\ Rabs (mwss_exact t) <= 18 * H.
    Proof.
      destruct rule_H as (H0 & HU & HI & H2). unfold mf_mwss_theta_only.
      destruct (vwrite_range (fun i => mf_mw_weights A (i - 1)) (N - 1) (- (N - 1) + 1) (N + 1) (vconst (2 * N) (RtoC 0))) as (w & E & El & Hw); [lia|cbn [vlen vconst]; lia|].
      rewrite (foldM_ext _ (fun w i => vwrite w (i + (N - 1))%Z (mf_mw_weights A (i - 1)))) by (intros; f_equal; lia). rewrite E. cbn [bind]. cbn [vlen vconst] in El.
      assert (Hw' : forall j, (0 <= j < 2 * N)%Z -> vat w j = if (j =? 0)%Z then RtoC 0 else mf_mw_weights A (j - N)).
      { intros j Hj. rewrite Hw. destruct (Z.eqb_spec j 0) as [->|]; zif; [reflexivity|]. f_equal. lia. }
      set (wr := vmap _ _). assert (Lwr : vlen wr = (2 * N)%Z) by exact (proj1 (transform_near w 0 El Hw' ltac:(lia))).
      assert (Hwr : forall t, (0 <= t < 2 * N)%Z -> Rabs (vat wr t - equi_weight N (2 * N) (mwss_theta N t)) <= H * (40 * u + 904 / 100 * eps)).
      { intros t Ht. destruct (transform_near w t El Hw' Ht) as [_ TN]. unfold wr. cbn [vmap vat]. set (z := vat (fft (ifftshift w)) t) in *.
        assert (ES := equi_small (mwss_theta N t)). unfold equi_weight in *. set (s := csum _ _) in *. unfold Rdiv in ES |- *. fold H in ES |- *.
        pose proof (rd_div _ _ _ HA (Re z) (IZR (2 * N)) ltac:(lra)) as M. unfold Rdiv in M. fold H in M. set (q := fdiv A _ _) in *.
        assert (D : Rabs (Re z - Re s) <= 29 * u + 903 / 100 * eps). { eapply Rle_trans; [|exact TN]. change (Re z - Re s) with (Re (z - s)%C). apply part_le. }
        assert (D2 : Rabs (Re z * H - Re s * H) <= (29 * u + 903 / 100 * eps) * H).
        { rewrite <- Rmult_minus_distr_r, Rabs_mult, (Rabs_right H) by lra. apply Rmult_le_compat_r; lra. }
        assert (D3 : Rabs (Re z * H) <= 95 / 10 * H).
        { replace (Re z * H) with ((Re z * H - Re s * H) + Re s * H) by ring. eapply Rle_trans; [apply Rabs_triang|].
          assert ((29 * u + 903 / 100 * eps) * H <= 49 / 100 * H) by (apply Rmult_le_compat_r; lra). lra. }
        replace (q - Re s * H) with ((q - Re z * H) + (Re z * H - Re s * H)) by ring. eapply Rle_trans; [apply Rabs_triang|].
        assert (u * Rabs (Re z * H) <= u * (95 / 10 * H)) by (now apply Rmult_le_compat_l). assert (0 <= eps * H) by (apply Rmult_le_pos; lra). assert (0 <= u * H) by (apply Rmult_le_pos; lra). lra. }
      assert (HwB : forall t, (0 <= t < 2 * N)%Z -> Rabs (vat wr t) <= 95 / 10 * H).
      { intros t Ht. specialize (Hwr t Ht). pose proof (equi_small (mwss_theta N t)). set (e := equi_weight _ _ _) in *. replace (vat wr t) with ((vat wr t - e) + e) by ring.
        eapply Rle_trans; [apply Rabs_triang|]. assert (H * (40 * u + 904 / 100 * eps) <= H * (5 / 10)) by (apply Rmult_le_compat_l; lra). lra. }
      clearbody wr.
      destruct (mf_add_slice_ok (vslice wr 0 (N + 1)) 1 N (sgn 0) (vrev_down wr N)) as (q & Eq & Lq & Hq).
      - lia. - lia. - rewrite vslice_in by lia. cbn [vlen]. lia. - cbn [vrev_down vlen]. lia.
      - exists q. rewrite vslice_in in Lq, Hq by lia. cbn [vlen vat] in Lq, Hq. split; [exact Eq|]. split; [lia|]. intros t Ht. rewrite Hq, Z.add_0_l.
        assert (EH : 0 <= eps * H) by (apply Rmult_le_pos; lra). assert (UH : 0 <= u * H) by (apply Rmult_le_pos; lra).
        assert (Ht2 : (0 <= t < 2 * N)%Z) by lia. pose proof (Hwr t Ht2) as E1. pose proof (HwB t Ht2) as B1. pose proof (equi_small (mwss_theta N t)) as X1.
        unfold mwss_exact. destruct ((1 <=? t) && (t <? N))%Z eqn:B.
        + assert (Ht3 : (0 <= 2 * N - t < 2 * N)%Z) by lia. pose proof (Hwr _ Ht3) as E2. pose proof (HwB _ Ht3) as B2. pose proof (equi_small (mwss_theta N (2 * N - t))) as X2.
          cbn [vrev_down vat]. rewrite Lwr. replace (2 * N - 1 - (t - 1))%Z with (2 * N - t)%Z by lia. change (sgn 0) with 1.
          set (a := vat wr t) in *. set (b := vat wr (2 * N - t)) in *. set (ea := equi_weight N (2 * N) (mwss_theta N t)) in *. set (eb := equi_weight N (2 * N) (mwss_theta N (2 * N - t))) in *.
          pose proof (rd_mul _ _ _ HA 1 b) as M1. rewrite Rmult_1_l in M1. set (p := fmul A 1 b) in *. pose proof (rd_add _ _ _ HA a p) as M2.
          assert (P1 : Rabs (p - b) <= 105 / 10 * (u * H)). { assert (u * Rabs b <= u * (95 / 10 * H)) by (now apply Rmult_le_compat_l). lra. }
          assert (P2 : Rabs (a + p) <= 19 * H + 105 / 10 * (u * H)).
          { replace (a + p) with (a + (p - b) + b) by ring. eapply Rle_trans; [apply Rabs_triang|]. eapply Rle_trans; [apply Rplus_le_compat_r, Rabs_triang|]. lra. }
          assert (P3 : u * Rabs (a + p) <= u * (19 * H + 105 / 10 * (u * H))) by (now apply Rmult_le_compat_l).
          assert (P4 : u * (u * H) <= / 1000 * (u * H)) by (apply Rmult_le_compat_r; lra).
          split.
          * replace (fadd A a p - (ea + eb)) with ((fadd A a p - (a + p)) + ((p - b) + ((a - ea) + (b - eb)))) by ring.
            eapply Rle_trans; [apply Rabs_triang|]. eapply Rle_trans; [apply Rplus_le_compat_l, Rabs_triang|]. eapply Rle_trans; [apply Rplus_le_compat_l, Rplus_le_compat_l, Rabs_triang|]. lra.
          * eapply Rle_trans; [apply Rabs_triang|]. lra.
        + rewrite Rplus_0_r. split; lra.
    Qed.
  End Rule.

  (** the weights of the forward transform *)
  Lemma mwss_weights_near fft L eps ths wgl : (1 <= L)%Z -> 4 * (IZR L * IZR L) * eta <= u -> 0 <= eps <= / 20 -> fft_accurate fft (4 * L) eps ->
    exists wf, mf_weights A fft "mwss" L ths wgl = Ok wf /\ vlen wf = (2 * L + 1)%Z /\
      forall t, (0 <= t < 2 * L + 1)%Z -> let w := mwss_exact (2 * L) t * 2 * PI / IZR (2 * L) in
        Rabs w <= mwss_share L /\ Rabs (vat wf t - w) <= (15 * u + 14 / 10 * eps) * mwss_share L /\ eta <= u * mwss_share L.
  Proof.
    intros HL HE Heps HF. assert (L1 : 1 <= IZR L) by (apply IZR_le; lia). set (l := IZR L) in *.
    assert (LL : l * eta <= l * l * eta) by (apply Rmult_le_compat_r; nra).
    assert (E4 : IZR (2 * (2 * L)) * eta <= u) by (rewrite !mult_IZR; fold l; lra).
    replace (4 * L)%Z with (2 * (2 * L))%Z in HF by lia.
    destruct (theta_only_near fft (2 * L) eps ltac:(lia) E4 Heps HF) as (q & Eq & Lq & Hq). destruct (rule_H (2 * L) ltac:(lia) E4) as (H0 & HU & HI & _).
    unfold mf_weights. change (streq (lower "mwss") "mwss") with true. cbv iota. rewrite Eq. cbn [bind]. eexists. split; [reflexivity|]. split; [exact Lq|].
    intros t Ht. destruct (Hq t ltac:(lia)) as [Q1 Q2]. cbn [vmap vat]. set (x := vat q t) in *. set (e := mwss_exact (2 * L) t) in *.
    assert (HH : / IZR (2 * (2 * L)) = / l * / 4) by (rewrite !mult_IZR; fold l; field; lra). rewrite HH in *. set (H := / l * / 4) in *.
    assert (N2 : IZR (2 * L) = 2 * l) by (now rewrite mult_IZR). rewrite N2.
    set (J := / (2 * l)). assert (J0 : 0 < J) by (apply Rinv_0_lt_compat; lra).
    assert (VE : mwss_share L = 36 * (H * J * PI)) by (unfold mwss_share, H, J; fold l; field; lra). rewrite VE.
    pose proof PI_4 as P4. pose proof PI2_3_2 as P3.
    assert (HJ : 0 < H * J) by (now apply Rmult_lt_0_compat).
    assert (EJ : eta <= H * J * u * 2).
    { replace (H * J * u * 2) with (/ (4 * (l * l)) * u) by (unfold H, J; field; lra). apply (Rmult_le_compat_l (/ (4 * (l * l)))) in HE; [|left; apply Rinv_0_lt_compat; nra].
      replace (/ (4 * (l * l)) * (4 * (l * l) * eta)) with eta in HE by (field; lra). exact HE. }
    assert (UH : 0 <= u * H) by (apply Rmult_le_pos; lra). assert (EH : 0 <= eps * H) by (apply Rmult_le_pos; lra).
    assert (PJ : 0 <= 2 * PI * J) by (apply Rmult_le_pos; lra).
    split; [|split].
    - unfold Rdiv. fold J. replace (e * 2 * PI * J) with (e * (2 * PI * J)) by ring. rewrite Rabs_mult, (Rabs_right (2 * PI * J)) by lra.
      replace (36 * (H * J * PI)) with (18 * H * (2 * PI * J)) by ring. apply Rmult_le_compat_r; [exact PJ|exact Q2].
    - (* times 2 *)
      assert (XB : Rabs x <= 191 / 10 * H).
      { replace x with ((x - e) + e) by ring. eapply Rle_trans; [apply Rabs_triang|]. assert (H * (112 * u + 181 / 10 * eps) <= H * (102 / 100)); [|lra].
        apply Rmult_le_compat_l; [lra|]. assert (u <= / 1000) by exact Hu. lra. }
      pose proof (rd_mul _ _ _ HA x 2) as M1. rewrite Rabs_mult, (Rabs_right 2) in M1 by lra. set (y := fmul A x 2) in *.
      assert (Y1 : Rabs (y - e * 2) <= H * (264 * u + 362 / 10 * eps)).
      { replace (y - e * 2) with ((y - x * 2) + (x - e) * 2) by ring. eapply Rle_trans; [apply Rabs_triang|]. rewrite (Rabs_mult (x - e)), (Rabs_right 2) by lra.
        assert (u * (Rabs x * 2) <= u * (382 / 10 * H)) by (apply Rmult_le_compat_l; lra). lra. }
      assert (YB : Rabs y <= 39 * H).
      { replace y with ((y - e * 2) + e * 2) by ring. eapply Rle_trans; [apply Rabs_triang|]. rewrite (Rabs_mult e), (Rabs_right 2) by lra.
        assert (H * (264 * u + 362 / 10 * eps) <= H * 3) by (apply Rmult_le_compat_l; lra). lra. }
      (* times pi *)
      pose proof (rd_pi _ _ _ HA) as MP. set (P := fpi A) in *. assert (PE2 : Rabs (P - PI) <= 5 * u) by nra.
      assert (PB2 : Rabs P <= 41 / 10). { replace P with ((P - PI) + PI) by ring. eapply Rle_trans; [apply Rabs_triang|]. rewrite (Rabs_right PI) by lra. lra. }
      pose proof (rd_mul _ _ _ HA y P) as M2. set (z := fmul A y P) in *.
      assert (YP : Rabs (y * P) <= 39 * H * (41 / 10)) by (rewrite Rabs_mult; apply Rmult_le_compat; try apply Rabs_pos; lra).
      assert (Z1 : Rabs (z - e * 2 * PI) <= H * (1412 * u + 1448 / 10 * eps)).
      { replace (z - e * 2 * PI) with ((z - y * P) + y * (P - PI) + (y - e * 2) * PI) by ring. eapply Rle_trans; [apply Rabs_triang|].
        eapply Rle_trans; [apply Rplus_le_compat_r, Rabs_triang|]. rewrite (Rabs_mult y), (Rabs_mult _ PI), (Rabs_right PI) by lra.
        assert (X1 : Rabs y * Rabs (P - PI) <= 39 * H * (5 * u)) by (apply Rmult_le_compat; try apply Rabs_pos; lra).
        assert (X2 : Rabs (y - e * 2) * PI <= H * (264 * u + 362 / 10 * eps) * 4) by (apply Rmult_le_compat; try apply Rabs_pos; lra).
        assert (X3 : u * Rabs (y * P) <= u * (39 * H * (41 / 10))) by (now apply Rmult_le_compat_l). lra. }
      assert (ZB : Rabs z <= 161 * H).
      { replace z with ((z - y * P) + y * P) by ring. eapply Rle_trans; [apply Rabs_triang|]. assert (X3 : u * Rabs (y * P) <= u * (39 * H * (41 / 10))) by (now apply Rmult_le_compat_l).
        assert (u * H <= / 1000 * H) by (apply Rmult_le_compat_r; lra). lra. }
      (* divided by 2L *)
      pose proof (rd_div _ _ _ HA z (2 * l) ltac:(lra)) as M3. set (v := fdiv A z (2 * l)) in *. unfold Rdiv in *. fold J in M3 |- *.
      assert (UJ : 0 <= H * J * u) by (apply Rmult_le_pos; lra). assert (EJ2 : 0 <= H * J * eps) by (apply Rmult_le_pos; lra).
      assert (V1 : Rabs (z * J - e * 2 * PI * J) <= H * (1412 * u + 1448 / 10 * eps) * J).
      { rewrite <- Rmult_minus_distr_r, Rabs_mult, (Rabs_right J) by lra. apply Rmult_le_compat_r; lra. }
      assert (V2 : u * Rabs (z * J) <= u * (161 * H * J)). { apply Rmult_le_compat_l; [exact u0|]. rewrite Rabs_mult, (Rabs_right J) by lra. apply Rmult_le_compat_r; lra. }
      replace (v - e * 2 * PI * J) with ((v - z * J) + (z * J - e * 2 * PI * J)) by ring. eapply Rle_trans; [apply Rabs_triang|].
      assert (W1 : H * J * u * 3 <= H * J * u * PI) by (apply Rmult_le_compat_l; lra). assert (W2 : H * J * eps * 3 <= H * J * eps * PI) by (apply Rmult_le_compat_l; lra).
      lra.
    - assert (H * J * u * 3 <= H * J * u * PI) by (apply Rmult_le_compat_l; [apply Rmult_le_pos|]; lra). assert (0 <= H * J * u) by (apply Rmult_le_pos; lra). lra.
  Qed.
End Float.
