From Coq Require Import Reals ZifyBool Psatz.
From Coquelicot Require Import Complex.
From Verif Require Import Lib.Py Lib.PyFacts Lib.Vec Lib.VecFacts Lib.Sums Lib.Cplx
  Model.Samples Model.HealpixFFT Model.FFT
  Spec.SamplesSpec Spec.HealpixFFTSpec Proofs.SamplesProofs Proofs.HealpixFFTProofs.
Open Scope Z_scope.

Lemma root_cis n a b : root n (a * b) = cis (IZR a * (2 * PI * IZR b / IZR n)).
Proof. unfold root. f_equal. rewrite mult_IZR. unfold Rdiv. ring. Qed.

Lemma fft_bwd_len x : vlen (fft_bwd x) = vlen x. Proof. reflexivity. Qed.
Lemma ifft_fwd_len x : vlen (ifft_fwd x) = vlen x. Proof. reflexivity. Qed.
Lemma fft_bwd_ext x y : veq x y -> veq (fft_bwd x) (fft_bwd y).
Proof.
  intros [E G]. split; [exact E|]. intros i _. cbn [fft_bwd vat]. rewrite <- E.
  apply cr_ext. intros p Hp. now rewrite G.
Qed.
Lemma ifft_fwd_ext x y : veq x y -> veq (ifft_fwd x) (ifft_fwd y).
Proof.
  intros [E G]. split; [exact E|]. intros i _. cbn [ifft_fwd vat]. rewrite <- E.
  apply cr_ext. intros p Hp. now rewrite G.
Qed.

(** fft entries are the ring coefficients, periodic in the order *)
Lemma fft_at (x : vec C) m : 0 < vlen x ->
  vat (fft_bwd x) (m mod vlen x) = ring_coefficient (vat x) (vlen x) m.
Proof.
  intros Hn. cbn [fft_bwd vat]. unfold ring_coefficient. apply cr_ext. intros p _. f_equal.
  rewrite <- opp_IZR, <- root_cis. apply root_congr; [lia|].
  replace (- (m mod vlen x * p)) with ((m mod vlen x) * - p) by ring.
  rewrite Z.mul_mod_idemp_l by lia. f_equal. ring.
Qed.

(** ** folding and the inverse transform *)
Lemma acc_sum n (e : Z -> C) l : (forall p, In p l -> 0 <= fst p < n) -> forall a : Z -> C,
  csum (zrange 0 n) (fun j => (acc Cplus l j (a j) * e j)%C)
  = (csum (zrange 0 n) (fun j => a j * e j) + csum l (fun p => snd p * e (fst p)))%C.
Proof.
  induction l as [|[d v] l IH]; intros Hl a.
  - cbn [acc fold_left]. unfold acc. cbn [fold_left]. rewrite (gs_nil _ _ (fun p => _)). ring.
  - rewrite (cr_ext 0 n _ (fun j => (acc Cplus l j (if d =? j then (a j + v)%C else a j) * e j)%C)).
    2:{ intros j _. reflexivity. }
    rewrite (IH (fun p Hp => Hl p (or_intror Hp)) (fun j => if d =? j then (a j + v)%C else a j)).
    rewrite (gs_cons _ _ (d, v) l). cbn [fst snd].
    rewrite (cr_ext 0 n _ (fun j => (a j * e j + (if j =? d then v * e j else RtoC 0))%C)).
    2:{ intros j _. rewrite (Z.eqb_sym d j). destruct (j =? d); ring. }
    rewrite cs_plus. rewrite (cr_delta 0 n d (fun j => (v * e j)%C)) by (apply (Hl (d, v)); now left).
    ring.
Qed.

Lemma folded_sum (fm : Z -> C) n L p : 0 < n -> Z.even n = true -> n <= 2 * L ->
  csum (zrange 0 n) (fun i => (folded Cplus fm n L ((i + n / 2) mod n) * root n (i * p))%C)
  = csum (zrange 0 (2 * L)) (fun k => (fm k * root n ((k - L) * p))%C).
Proof.
  intros Hn He HL. pose proof (even_half n He) as Hh. set (h := n / 2) in *.
  set (e := fun j => root n ((j - h) * p)).
  rewrite (cr_ext 0 n _ (fun i => (fun j => (folded Cplus fm n L j * e j)%C) ((i + h) mod n))).
  2:{ intros i Hi. cbv beta. f_equal. unfold e. apply root_congr; [lia|].
      rewrite <- (Z.mul_mod_idemp_l ((i + h) mod n - h)), Zminus_mod_idemp_l, Z.mul_mod_idemp_l by lia.
      f_equal. ring. }
  rewrite (cr_perm 0 n 0 n (fun i => (i + h) mod n) (fun j => (folded Cplus fm n L j * e j)%C)).
  2:{ intros x _. apply Z.mod_pos_bound. lia. }
  2:{ intros x y Hx Hy E. apply Z.mod_eq in E || idtac.
      assert (E' : (x - y) mod n = 0).
      { replace (x - y) with ((x + h) - (y + h)) by lia. rewrite Zminus_mod, E, Z.sub_diag. apply Z.mod_0_l. lia. }
      apply Z.mod_divide in E'; [|lia]. destruct E' as [q Hq].
      assert (q <= -1 \/ q = 0 \/ 1 <= q) as [?|[?|?]] by lia; [nia|subst q; lia|nia]. }
  2:{ lia. }
  unfold folded.
  rewrite (acc_sum n e (pos_adds fm n L)).
  2:{ intros q Hq. apply in_map_iff in Hq. destruct Hq as (x & <- & Hx). apply Z.mod_pos_bound. lia. }
  rewrite (acc_sum n e (neg_adds fm n L)).
  2:{ intros q Hq. apply in_map_iff in Hq. destruct Hq as (x & <- & Hx). apply Z.mod_pos_bound. lia. }
  unfold pos_adds, neg_adds. rewrite !cs_map. cbn [fst snd]. fold h.
  rewrite (cr_split 0 (L - h) (2 * L)), (cr_split (L - h) (L - h + n) (2 * L)) by lia.
  set (g := fun k => (fm k * root n ((k - L) * p))%C).
  assert (E1 : csum (zrange 0 n) (fun j => (fm (L - h + j)%Z * e j)%C) = csum (zrange (L - h) (L - h + n)) g).
  { rewrite <- (cr_perm 0 n (L - h) (L - h + n) (fun x => L - h + x) g) by lia.
    apply cr_ext. intros j _. unfold g, e. f_equal. f_equal. ring. }
  assert (E2 : csum (zrange 1 (L - h + 1)) (fun x => (fm (L - h - x)%Z * e (- x mod n)%Z)%C)
               = csum (zrange 0 (L - h)) g).
  { rewrite <- (cr_perm 1 (L - h + 1) 0 (L - h) (fun x => L - h - x) g) by lia.
    apply cr_ext. intros x _. unfold g, e. f_equal. apply root_congr; [lia|].
    rewrite <- (Z.mul_mod_idemp_l (- x mod n - h)), Zminus_mod_idemp_l, Z.mul_mod_idemp_l by lia.
    f_equal. ring. }
  assert (E3 : csum (zrange 0 (L - h)) (fun x => (fm (L - h + n + x)%Z * e (x mod n)%Z)%C)
               = csum (zrange (L - h + n) (2 * L)) g).
  { rewrite <- (cr_perm 0 (L - h) (L - h + n) (2 * L) (fun x => L - h + n + x) g) by lia.
    apply cr_ext. intros x _. unfold g, e. f_equal. apply root_congr; [lia|].
    rewrite <- (Z.mul_mod_idemp_l (x mod n - h)), Zminus_mod_idemp_l, Z.mul_mod_idemp_l by lia.
    rewrite <- (Z.mod_add ((x - h) * p) p n) by lia. f_equal. nia. }
  rewrite E1, E2, E3. ring.
Qed.

Lemma ring_spectrum_ifft (row : vec C) n L p : 0 < n -> Z.even n = true -> n <= 2 * L ->
  vat (ifft_fwd (ring_spectrum Cplus row n L)) p = ring_value row L n p.
Proof.
  intros. cbn [ifft_fwd ring_spectrum vat vlen]. rewrite folded_sum by auto.
  unfold ring_value. apply cr_ext. intros k _. now rewrite root_cis.
Qed.

(** ** real transforms *)
Lemma rfft_bwd_ok : forall r, rfft_ok rfft_bwd r.
Proof.
  intros r _. split; [reflexivity|]. intros x y [E G]. split; [cbn [vlen rfft_bwd]; now rewrite E|].
  intros i _. cbn [rfft_bwd vat fft_bwd real_part vmap vlen]. rewrite <- E.
  apply cr_ext. intros p Hp. now rewrite G.
Qed.
Lemma irfft_fwd_ok : forall r, irfft_ok irfft_fwd r.
Proof.
  intros r _. split; [reflexivity|]. intros x y n [E G]. split; [reflexivity|].
  intros p Hp. cbn [vlen irfft_fwd] in Hp. cbn [irfft_fwd vat]. rewrite <- E.
  assert (X : forall k, 0 <= k -> (if k <? vlen x then vat x k else RtoC 0) = (if k <? vlen x then vat y k else RtoC 0)).
  { intros k Hk. destruct (Z.ltb_spec k (vlen x)); auto. }
  f_equal. f_equal; [f_equal|].
  - f_equal. apply X. lia.
  - f_equal. apply rr_ext. intros k Hk. rewrite X by lia. reflexivity.
  - destruct (Z.even n) eqn:Ev; [|auto].
    rewrite X by (apply Z.div_pos; lia). reflexivity.
Qed.

(** For a Hermitian row without the order -L the real transform sums all orders. *)
Lemma Re_mult_conj z w : (Cconj z * Cconj w + z * w)%C = RtoC (2 * Re (z * w)%C)%R.
Proof. destruct z, w. apply C_eq; cbn; ring. Qed.

Lemma irfft_hermitian (row : vec C) L p : 0 < L -> hermitian_row L row ->
  vat (irfft_fwd (mkVec L (fun m => vat row (L + m))) (2 * L)) p = ring_value row L (2 * L) p.
Proof.
  intros HL [H0 Hh]. cbn [irfft_fwd vat vlen].
  assert (E1 : 2 * L / 2 = L) by (rewrite Z.mul_comm; apply Z.div_mul; lia).
  assert (E2 : (2 * L + 1) / 2 = L) by (rewrite Z.mul_comm, Z.div_add_l by lia; change (1 / 2) with 0; lia).
  rewrite E1, E2. rewrite Z.ltb_irrefl. replace (0 <? L) with true by lia.
  rewrite Z.even_mul. cbn [Z.even orb].
  unfold ring_value.
  rewrite (cr_ext 0 (2 * L) _ (fun k => (vat row k * root (2 * L) ((k - L) * p))%C)) by (intros; now rewrite root_cis).
  rewrite (cr_split 0 1 (2 * L)), (cr_split 1 L (2 * L)), (cr_split L (L + 1) (2 * L)) by lia.
  replace (zrange 0 1) with (zrange 0 (0 + 1)) by reflexivity. rewrite !cr_one. rewrite H0.
  rewrite <- (cr_perm 1 L 1 L (fun m => L - m) (fun k => (vat row k * root (2 * L) ((k - L) * p))%C)) by lia.
  rewrite <- (cr_perm 1 L (L + 1) (2 * L) (fun m => L + m) (fun k => (vat row k * root (2 * L) ((k - L) * p))%C)) by lia.
  replace ((L - L) * p) with 0 by ring. rewrite root_0.
  assert (Z0 : vat row L = RtoC (Re (vat row L))).
  { specialize (Hh 0 ltac:(lia)). rewrite Z.sub_0_r, Z.add_0_r in Hh. destruct (vat row L) as [a b].
    unfold Cconj in Hh. cbn in Hh. assert (b = (- b)%R) by congruence. unfold RtoC. cbn. f_equal. lra. }
  rewrite Z0.
  set (A := csum (zrange 1 L) (fun x => (vat row (L - x) * _)%C)).
  set (B := csum (zrange 1 L) (fun x => (vat row (L + x) * _)%C)).
  assert (AB : (A + B)%C = RtoC (2 * rsum (zrange 1%Z L) (fun m => Re (vat row (L + m)%Z * root (2 * L) (m * p))%C))).
  { unfold A, B. rewrite <- cs_plus. rewrite <- rs_scal_l, <- csum_RtoC. apply cr_ext. intros m Hm.
    rewrite Hh by lia.
    replace ((L - m - L) * p) with (- (m * p)) by ring. replace ((L + m - L) * p) with (m * p) by ring.
    rewrite root_opp. apply Re_mult_conj. }
  replace (RtoC 0 * root (2 * L) ((0 - L) * p) + (A + (RtoC (Re (vat row L)) * RtoC 1 + B)))%C
    with (RtoC (Re (vat row L)) + (A + B))%C by ring.
  rewrite AB, <- RtoC_plus. rewrite Z.add_0_r. f_equal.
  replace (Re (RtoC 0) * sgn p)%R with 0%R by (cbn; ring). rewrite Rplus_0_r. f_equal. f_equal.
  apply rr_ext. intros m Hm. now replace (m <? L) with true by lia.
Qed.

(** ** statements for whole maps *)
Lemma inverse_gen (reality : bool) (nside L : Z) (ftm : vec (vec C)) (method : string) :
  1 <= nside -> 4 * nside <= 2 * L -> ftm_table nside L ftm ->
  (method = "numpy"%string \/ method = "jax"%string) ->
  exists ftm' f, healpix_ifft (RtoC 0) Cplus ifft_fwd irfft_fwd ftm L nside method reality = Ok (ftm', f) /\
    vlen f = 12 * (nside * nside) /\
    forall t p, 0 <= t < 4 * nside - 1 -> 0 <= p < ring_length nside t ->
      pixel nside t p f = chunk_entry Cplus ifft_fwd irfft_fwd reality (vat ftm t) (ring_length nside t) L p.
Proof.
  intros Hn HL [T1 T2] Hm. unfold healpix_ifft. replace (negb (2 * nside <=? L)) with false by lia.
  destruct Hm as [-> | ->]; cbn [streq].
  - destruct (healpix_ifft_numpy_gen (RtoC 0) Cplus ifft_fwd irfft_fwd ifft_fwd_len ifft_fwd_ext reality
      ftm L nside (irfft_fwd_ok reality) Hn ltac:(lia) T1 T2) as (ftm' & f & E & V & G & _).
    change (streq "numpy" "numpy") with true. cbn [andb]. cbv iota. rewrite E.
    exists ftm', f. split; [reflexivity|]. split; [exact V|]. intros; apply G; auto.
  - destruct (healpix_ifft_jax_gen (RtoC 0) Cplus ifft_fwd irfft_fwd ifft_fwd_len ifft_fwd_ext reality
      ftm L nside (irfft_fwd_ok reality) Hn ltac:(lia) T1 T2) as (f & E & V & G).
    change (streq "jax" "numpy") with false. change (streq "jax" "jax") with true. cbv iota. rewrite E.
    exists ftm, f. split; [reflexivity|]. split; [exact V|]. intros; apply G; auto.
Qed.

Lemma C11_lemma (nside L : Z) (ftm : vec (vec C)) (method : string) :
  1 <= nside -> 4 * nside <= 2 * L -> ftm_table nside L ftm ->
  (method = "numpy"%string \/ method = "jax"%string) ->
  exists ftm' f, healpix_ifft (RtoC 0) Cplus ifft_fwd irfft_fwd ftm L nside method false = Ok (ftm', f) /\
    vlen f = 12 * (nside * nside) /\
    forall t p, 0 <= t < 4 * nside - 1 -> 0 <= p < ring_length nside t ->
      pixel nside t p f = ring_value (vat ftm t) L (ring_length nside t) p.
Proof.
  intros Hn HL HT Hm. destruct (inverse_gen false nside L ftm method Hn HL HT Hm) as (ftm' & f & E & V & G).
  exists ftm', f. split; [exact E|]. split; [exact V|]. intros t p Ht Hp. rewrite G by auto.
  unfold chunk_entry. cbn [andb]. pose proof (ring_length_pos nside t Hn Ht). pose proof (ring_length_le nside t).
  apply ring_spectrum_ifft; [lia|apply nphi_half|lia].
Qed.

Lemma C11_real_lemma (nside L : Z) (ftm : vec (vec C)) (method : string) :
  1 <= nside -> 4 * nside <= 2 * L -> ftm_table nside L ftm ->
  (forall t, 0 <= t < 4 * nside - 1 -> hermitian_row L (vat ftm t)) ->
  (method = "numpy"%string \/ method = "jax"%string) ->
  exists ftm' f, healpix_ifft (RtoC 0) Cplus ifft_fwd irfft_fwd ftm L nside method true = Ok (ftm', f) /\
    vlen f = 12 * (nside * nside) /\
    forall t p, 0 <= t < 4 * nside - 1 -> 0 <= p < ring_length nside t ->
      pixel nside t p f = ring_value (vat ftm t) L (ring_length nside t) p.
Proof.
  intros Hn HL HT Hh Hm. destruct (inverse_gen true nside L ftm method Hn HL HT Hm) as (ftm' & f & E & V & G).
  exists ftm', f. split; [exact E|]. split; [exact V|]. intros t p Ht Hp. rewrite G by auto.
  unfold chunk_entry. cbn [andb]. pose proof (ring_length_pos nside t Hn Ht). pose proof (ring_length_le nside t).
  destruct (Z.eqb_spec (ring_length nside t) (2 * L)) as [Er|Er].
  - rewrite Er. apply irfft_hermitian; [lia|]. now apply Hh.
  - apply ring_spectrum_ifft; [lia|apply nphi_half|lia].
Qed.

Lemma C11_checks_lemma (nside L : Z) (ftm : vec (vec C)) (method : string) reality :
  (L < 2 * nside -> healpix_ifft (RtoC 0) Cplus ifft_fwd irfft_fwd ftm L nside method reality = Err AssertionError) /\
  (2 * nside <= L -> method <> "numpy"%string -> method <> "jax"%string ->
   healpix_ifft (RtoC 0) Cplus ifft_fwd irfft_fwd ftm L nside method reality = Err ValueError).
Proof.
  unfold healpix_ifft. split.
  - intros H. now replace (negb (2 * nside <=? L)) with true by lia.
  - intros H N1 N2. replace (negb (2 * nside <=? L)) with false by lia.
    unfold streq. rewrite (proj2 (String.eqb_neq method "numpy") N1), (proj2 (String.eqb_neq method "jax") N2). reflexivity.
Qed.

Lemma forward_gen (reality : bool) (nside L : Z) (f : vec C) (method : string) :
  1 <= nside -> 4 * nside <= 2 * L -> vlen f = 12 * (nside * nside) ->
  (method = "numpy"%string \/ (method = "jax"%string /\ 2 <= nside)) ->
  exists ftm, healpix_fft (RtoC 0) fft_bwd rfft_bwd f L nside method reality = Ok ftm /\
    ftm_table nside L ftm /\
    forall t k, 0 <= t < 4 * nside - 1 -> 0 <= k < 2 * L ->
      vat (vat ftm t) k = row_entry (RtoC 0) fft_bwd rfft_bwd reality (ring_of f nside t) L k.
Proof.
  intros Hn HL Hf Hm. unfold healpix_fft. destruct Hm as [-> | [-> Hn2]].
  - change (streq "numpy" "numpy") with true. cbv iota.
    destruct (healpix_fft_numpy_gen (RtoC 0) fft_bwd rfft_bwd fft_bwd_len reality f L nside
      (rfft_bwd_ok reality) Hn HL Hf) as (ftm & E & V & G). exists ftm. split; [exact E|].
    split; [split; [exact V|]; intros t Ht; apply (G t Ht)|]. intros t k Ht Hk. apply (G t Ht). auto.
  - change (streq "jax" "numpy") with false. change (streq "jax" "jax") with true. cbv iota.
    destruct (healpix_fft_jax_gen (RtoC 0) fft_bwd rfft_bwd fft_bwd_len fft_bwd_ext reality f L nside
      (rfft_bwd_ok reality) Hn2 HL Hf) as (ftm & E & V & G). exists ftm. split; [exact E|].
    split; [split; [exact V|]; intros t Ht; apply (G t Ht)|]. intros t k Ht Hk. apply (G t Ht). auto.
Qed.

Lemma C12_lemma (nside L : Z) (f : vec C) (method : string) :
  1 <= nside -> 4 * nside <= 2 * L -> vlen f = 12 * (nside * nside) ->
  (method = "numpy"%string \/ (method = "jax"%string /\ 2 <= nside)) ->
  exists ftm, healpix_fft (RtoC 0) fft_bwd rfft_bwd f L nside method false = Ok ftm /\
    ftm_table nside L ftm /\
    forall t k, 0 <= t < 4 * nside - 1 -> 0 <= k < 2 * L ->
      vat (vat ftm t) k = ring_coefficient (fun p => pixel nside t p f) (ring_length nside t) (k - L).
Proof.
  intros Hn HL Hf Hm. destruct (forward_gen false nside L f method Hn HL Hf Hm) as (ftm & E & T & G).
  exists ftm. split; [exact E|]. split; [exact T|]. intros t k Ht Hk. rewrite G by auto.
  unfold row_entry. cbn [andb]. pose proof (ring_length_pos nside t Hn Ht).
  rewrite fft_at by (cbn [vlen ring_of]; lia). reflexivity.
Qed.

Lemma C12_real_lemma (nside L : Z) (f : vec C) (method : string) :
  1 <= nside -> 4 * nside <= 2 * L -> vlen f = 12 * (nside * nside) ->
  (forall i, 0 <= i < 12 * (nside * nside) -> is_real (vat f i)) ->
  (method = "numpy"%string \/ (method = "jax"%string /\ 2 <= nside)) ->
  exists ftm, healpix_fft (RtoC 0) fft_bwd rfft_bwd f L nside method true = Ok ftm /\
    ftm_table nside L ftm /\
    forall t k, 0 <= t < 4 * nside - 1 -> 0 <= k < 2 * L ->
      vat (vat ftm t) k =
        if (ring_length nside t =? 2 * L) && (k <? L) then RtoC 0
        else ring_coefficient (fun p => pixel nside t p f) (ring_length nside t) (k - L).
Proof.
  intros Hn HL Hf Hreal Hm. destruct (forward_gen true nside L f method Hn HL Hf Hm) as (ftm & E & T & G).
  exists ftm. split; [exact E|]. split; [exact T|]. intros t k Ht Hk. rewrite G by auto.
  unfold row_entry. cbn [andb]. pose proof (ring_length_pos nside t Hn Ht). cbn [vlen ring_of].
  destruct (Z.eqb_spec (ring_length nside t) (2 * L)) as [Er|Er]; cbn [andb].
  - destruct (Z.ltb_spec k L); [reflexivity|].
    cbn [rfft_bwd vat]. set (x := real_part (ring_of f nside t)).
    assert (Hx : vlen x = ring_length nside t) by reflexivity.
    replace (k - L) with ((k - L) mod vlen x) at 1 by (rewrite Hx, Er; apply Z.mod_small; lia).
    rewrite fft_at by lia. rewrite Hx. unfold ring_coefficient. apply cr_ext. intros p Hp. f_equal.
    cbn [x real_part vmap vat ring_of]. unfold pixel.
    assert (B : 0 <= ring_start (ring_length nside) t + p < 12 * (nside * nside)).
    { assert (NN : forall i, 0 <= i < 4 * nside - 1 -> 0 <= ring_length nside i).
      { intros i Hi. pose proof (ring_length_pos nside i Hn Hi). lia. }
      assert (0 <= ring_start (ring_length nside) t).
      { rewrite <- (ring_start_0 (ring_length nside)). apply ring_start_mono; try lia. intros; apply NN; lia. }
      assert (ring_start (ring_length nside) (t + 1) <= 12 * (nside * nside)).
      { rewrite <- ring_start_total by lia. apply ring_start_mono; try lia. intros; apply NN; lia. }
      rewrite ring_start_succ in H2 by lia. lia. }
    specialize (Hreal _ B). unfold is_real in Hreal. apply C_eq; cbn; [reflexivity|].
    now rewrite <- Hreal.
  - rewrite fft_at by (cbn [vlen ring_of]; lia). reflexivity.
Qed.

Lemma C12_assert_lemma (nside L : Z) (f : vec C) reality :
  1 <= nside -> 1 <= L -> 2 * L < 4 * nside -> vlen f = 12 * (nside * nside) ->
  healpix_fft (RtoC 0) fft_bwd rfft_bwd f L nside "numpy" reality = Err AssertionError.
Proof.
  intros. unfold healpix_fft. change (streq "numpy" "numpy") with true. cbv iota.
  apply (healpix_fft_numpy_assert (RtoC 0) fft_bwd rfft_bwd fft_bwd_len); auto. apply rfft_bwd_ok.
Qed.

Lemma C12_jax_nside1_lemma (L : Z) (f : vec C) reality :
  healpix_fft (RtoC 0) fft_bwd rfft_bwd f L 1 "jax" reality = Err ValueError.
Proof. reflexivity. Qed.

(** ** mutation of the input *)
Lemma C13_numpy_after_lemma (nside L : Z) (ftm : vec (vec C)) reality :
  1 <= nside -> 4 * nside <= 2 * L -> ftm_table nside L ftm ->
  exists ftm' f, healpix_ifft (RtoC 0) Cplus ifft_fwd irfft_fwd ftm L nside "numpy" reality = Ok (ftm', f) /\
    ftm_table nside L ftm' /\
    forall t, 0 <= t < 4 * nside - 1 -> row_after Cplus (vat ftm t) (vat ftm' t) (ring_length nside t) L.
Proof.
  intros Hn HL [T1 T2]. unfold healpix_ifft. replace (negb (2 * nside <=? L)) with false by lia.
  change (streq "numpy" "numpy") with true. cbv iota.
  destruct (healpix_ifft_numpy_gen (RtoC 0) Cplus ifft_fwd irfft_fwd ifft_fwd_len ifft_fwd_ext reality
      ftm L nside (irfft_fwd_ok reality) Hn ltac:(lia) T1 T2) as (ftm' & f & E & V & G & V' & G').
  exists ftm', f. split; [exact E|]. split; [|exact G']. split; [exact V'|]. intros t Ht. apply (G' t Ht).
Qed.

Lemma acc_zeros l i a : (forall p, In p l -> snd p = RtoC 0) -> acc Cplus l i a = a.
Proof.
  revert a. induction l as [|[d v] l IH]; intros a H; [reflexivity|].
  unfold acc in *. cbn [fold_left fst snd]. rewrite IH by (intros; apply H; now right).
  specialize (H (d, v) (or_introl eq_refl)). cbn in H. subst v. destruct (d =? i); [apply Cplus_0_r|reflexivity].
Qed.

(** Orders that a ring cannot resolve. *)
Lemma folded_zeros (fm : Z -> C) n L i : 0 < n -> Z.even n = true -> n <= 2 * L ->
  (forall k, 0 <= k < 2 * L -> k < L - n / 2 \/ L + n / 2 <= k -> fm k = RtoC 0) ->
  folded Cplus fm n L i = fm (L - n / 2 + i).
Proof.
  intros Hn He HL H. pose proof (even_half n He). unfold folded. rewrite acc_zeros, acc_zeros; [reflexivity| |].
  - intros p Hp. apply in_map_iff in Hp. destruct Hp as (x & <- & Hx). apply in_zrange in Hx. cbn. apply H; lia.
  - intros p Hp. apply in_map_iff in Hp. destruct Hp as (x & <- & Hx). apply in_zrange in Hx. cbn. apply H; lia.
Qed.

Lemma C13_unchanged_lemma (nside L : Z) (ftm : vec (vec C)) reality :
  1 <= nside -> 4 * nside <= 2 * L -> ftm_table nside L ftm ->
  (forall t k, 0 <= t < 4 * nside - 1 -> 0 <= k < 2 * L ->
     k < L - ring_length nside t / 2 \/ L + ring_length nside t / 2 <= k -> vat (vat ftm t) k = RtoC 0) ->
  exists ftm' f, healpix_ifft (RtoC 0) Cplus ifft_fwd irfft_fwd ftm L nside "numpy" reality = Ok (ftm', f) /\
    vlen ftm' = vlen ftm /\ forall t, 0 <= t < 4 * nside - 1 -> veq (vat ftm' t) (vat ftm t).
Proof.
  intros Hn HL HT Hz. destruct (C13_numpy_after_lemma nside L ftm reality Hn HL HT) as (ftm' & f & E & T' & R).
  exists ftm', f. split; [exact E|]. destruct HT as [T1 T2], T' as [T1' T2'].
  split; [congruence|]. intros t Ht. specialize (R t Ht). destruct R as (R1 & R2 & R3).
  split; [rewrite T2 by auto; auto|]. rewrite R1. intros k Hk.
  pose proof (ring_length_pos nside t Hn Ht). pose proof (ring_length_le nside t).
  pose proof (nphi_half nside t) as Hev. pose proof (even_half _ Hev) as Hh.
  set (n := ring_length nside t) in *.
  destruct (Z_lt_dec k (L - n / 2)); [apply R3; lia|].
  destruct (Z_le_dec (L + n / 2) k); [apply R3; lia|].
  replace k with (L - n / 2 + (k - (L - n / 2))) at 1 by lia. rewrite R2 by lia.
  rewrite folded_zeros; [f_equal; lia|lia|exact Hev|lia|intros; apply Hz; auto].
Qed.

Lemma C13_refuted_lemma :
  exists ftm ftm' ftm'' f f',
    ftm_table 1 3 ftm /\
    healpix_ifft (RtoC 0) Cplus ifft_fwd irfft_fwd ftm 3 1 "numpy" false = Ok (ftm', f) /\
    healpix_ifft (RtoC 0) Cplus ifft_fwd irfft_fwd ftm' 3 1 "numpy" false = Ok (ftm'', f') /\
    vat (vat ftm 0) 1 = RtoC 1 /\ vat (vat ftm' 0) 1 = RtoC 2 /\
    vat f 0 = RtoC 6 /\ vat f' 0 = RtoC 8.
Proof.
  set (ftm := vconst 3 (vconst 6 (RtoC 1))).
  assert (T : ftm_table 1 3 ftm) by (split; [reflexivity|intros; reflexivity]).
  destruct (C13_numpy_after_lemma 1 3 ftm false ltac:(lia) ltac:(lia) T) as (ftm' & f & E & T' & R).
  destruct (C11_lemma 1 3 ftm "numpy" ltac:(lia) ltac:(lia) T (or_introl eq_refl)) as (x1 & x2 & E1 & V1 & G1).
  assert (x1 = ftm' /\ x2 = f) as [-> ->] by (rewrite E in E1; split; congruence).
  destruct (C11_lemma 1 3 ftm' "numpy" ltac:(lia) ltac:(lia) T' (or_introl eq_refl)) as (ftm'' & f' & E2 & V2 & G2).
  exists ftm, ftm', ftm'', f, f'. split; [exact T|]. split; [exact E|]. split; [exact E2|].
  specialize (R 0 ltac:(lia)). destruct R as (R1 & R2 & R3).
  change (ring_length 1 0) with 4 in *. change (4 / 2) with 2 in *.
  pose proof (R2 0 ltac:(lia)) as A0. pose proof (R2 1 ltac:(lia)) as A1.
  pose proof (R2 2 ltac:(lia)) as A2. pose proof (R2 3 ltac:(lia)) as A3.
  pose proof (R3 0 ltac:(lia)) as A4. pose proof (R3 5 ltac:(lia)) as A5.
  change (folded Cplus (vat (vat ftm 0)) 4 3 0) with (RtoC 1 + RtoC 1)%C in A0.
  change (folded Cplus (vat (vat ftm 0)) 4 3 1) with (RtoC 1) in A1.
  change (folded Cplus (vat (vat ftm 0)) 4 3 2) with (RtoC 1) in A2.
  change (folded Cplus (vat (vat ftm 0)) 4 3 3) with (RtoC 1 + RtoC 1)%C in A3.
  change (vat (vat ftm 0) 0) with (RtoC 1) in A4. change (vat (vat ftm 0) 5) with (RtoC 1) in A5.
  change (3 - 2 + 0) with 1 in A0. change (3 - 2 + 1) with 2 in A1.
  change (3 - 2 + 2) with 3 in A2. change (3 - 2 + 3) with 4 in A3.
  assert (P2 : (RtoC 1 + RtoC 1)%C = RtoC 2) by (rewrite <- RtoC_plus; f_equal; lra).
  rewrite P2 in *.
  split; [reflexivity|]. split; [exact A0|].
  pose proof (G1 0 0 ltac:(lia) ltac:(cbn; lia)) as H1. pose proof (G2 0 0 ltac:(lia) ltac:(cbn; lia)) as H2.
  unfold pixel in H1, H2. change (ring_start (ring_length 1) 0 + 0) with 0 in *. rewrite H1, H2.
  assert (RV : forall row, ring_value row 3 4 0 = csum (zrange 0 6) (vat row)).
  { intros row. unfold ring_value. apply cr_ext. intros k _.
    replace (IZR (k - 3) * (2 * PI * 0 / IZR 4))%R with 0%R by (unfold Rdiv; ring). rewrite cis_0. apply Cmult_1_r. }
  change (ring_length 1 0) with 4. rewrite !RV. change (zrange 0 6) with [0;1;2;3;4;5]. cbn [suml fold_right].
  split; [cbn [vat ftm vconst]|rewrite A0, A1, A2, A3, A4, A5]; rewrite <- ?RtoC_plus; f_equal; lra.
Qed.

Lemma C13_jax_lemma nside L (ftm ftm' : vec (vec C)) f reality :
  healpix_ifft (RtoC 0) Cplus ifft_fwd irfft_fwd ftm L nside "jax" reality = Ok (ftm', f) -> ftm' = ftm.
Proof.
  unfold healpix_ifft. destruct (negb (2 * nside <=? L)); [discriminate|].
  change (streq "jax" "numpy") with false. change (streq "jax" "jax") with true. cbv iota.
  destruct (healpix_ifft_jax _ _ _ _ _ _ _ _); cbn; congruence.
Qed.

(** The folded entry collects exactly the orders of its residue class. *)
Lemma folded_general (fm e : Z -> C) n L : 0 < n -> Z.even n = true -> n <= 2 * L ->
  (forall x, e (x mod n) = e x) ->
  csum (zrange 0 n) (fun j => (folded Cplus fm n L j * e j)%C)
  = csum (zrange 0 (2 * L)) (fun k => (fm k * e (k - (L - n / 2))%Z)%C).
Proof.
  intros Hn He HL Hp. pose proof (even_half n He) as Hh. set (h := n / 2) in *.
  unfold folded.
  rewrite (acc_sum n e (pos_adds fm n L)).
  2:{ intros q Hq. apply in_map_iff in Hq. destruct Hq as (x & <- & Hx). apply Z.mod_pos_bound. lia. }
  rewrite (acc_sum n e (neg_adds fm n L)).
  2:{ intros q Hq. apply in_map_iff in Hq. destruct Hq as (x & <- & Hx). apply Z.mod_pos_bound. lia. }
  unfold pos_adds, neg_adds. rewrite !cs_map. cbn [fst snd]. fold h.
  rewrite (cr_split 0 (L - h) (2 * L)), (cr_split (L - h) (L - h + n) (2 * L)) by lia.
  set (g := fun k => (fm k * e (k - (L - h))%Z)%C).
  assert (E1 : csum (zrange 0 n) (fun j => (fm (L - h + j)%Z * e j)%C) = csum (zrange (L - h) (L - h + n)) g).
  { rewrite <- (cr_perm 0 n (L - h) (L - h + n) (fun x => L - h + x) g) by lia.
    apply cr_ext. intros j _. unfold g. f_equal. f_equal. ring. }
  assert (E2 : csum (zrange 1 (L - h + 1)) (fun x => (fm (L - h - x)%Z * e (- x mod n)%Z)%C)
               = csum (zrange 0 (L - h)) g).
  { rewrite <- (cr_perm 1 (L - h + 1) 0 (L - h) (fun x => L - h - x) g) by lia.
    apply cr_ext. intros x _. unfold g. rewrite Hp. f_equal. f_equal. ring. }
  assert (E3 : csum (zrange 0 (L - h)) (fun x => (fm (L - h + n + x)%Z * e (x mod n)%Z)%C)
               = csum (zrange (L - h + n) (2 * L)) g).
  { rewrite <- (cr_perm 0 (L - h) (L - h + n) (2 * L) (fun x => L - h + n + x) g) by lia.
    apply cr_ext. intros x _. unfold g. f_equal. rewrite Hp.
    rewrite <- (Hp (L - h + n + x - (L - h))). replace (L - h + n + x - (L - h)) with (x + 1 * n) by ring.
    rewrite Z.mod_add by lia. symmetry; apply Hp. }
  rewrite E1, E2, E3. ring.
Qed.

Lemma folded_class (fm : Z -> C) n L i : 0 < n -> Z.even n = true -> n <= 2 * L -> 0 <= i < n ->
  folded Cplus fm n L i
  = csum (zrange 0 (2 * L)) (fun k => if (k - (L - n / 2 + i)) mod n =? 0 then fm k else RtoC 0).
Proof.
  intros Hn He HL Hi.
  pose proof (folded_general fm (fun x => if (x - i) mod n =? 0 then RtoC 1 else RtoC 0) n L Hn He HL) as G.
  cbv beta in G. rewrite (cr_ext 0 n _ (fun j => if j =? i then folded Cplus fm n L j else RtoC 0)) in G.
  2:{ intros j Hj. assert (B : ((j - i) mod n =? 0) = (j =? i)).
      { destruct (Z.eqb_spec j i) as [->|N]; [now rewrite Z.sub_diag, Z.mod_0_l by lia|].
        apply Z.eqb_neq. intros E. apply Z.mod_divide in E; [|lia]. destruct E as [q Hq].
        assert (q <= -1 \/ q = 0 \/ 1 <= q) as [?|[?|?]] by lia; nia. }
      rewrite B. destruct (j =? i); ring. }
  rewrite cr_delta in G by lia. rewrite G.
  - apply cr_ext. intros k _. replace (k - (L - n / 2) - i) with (k - (L - n / 2 + i)) by ring.
    destruct (_ =? 0); ring.
  - intros x. now rewrite Zminus_mod_idemp_l.
Qed.

Lemma C13_effect_lemma (nside L : Z) (ftm : vec (vec C)) reality :
  1 <= nside -> 4 * nside <= 2 * L -> ftm_table nside L ftm ->
  exists ftm' f, healpix_ifft (RtoC 0) Cplus ifft_fwd irfft_fwd ftm L nside "numpy" reality = Ok (ftm', f) /\
    ftm_table nside L ftm' /\
    forall t j, 0 <= t < 4 * nside - 1 -> 0 <= j < 2 * L ->
      let n := ring_length nside t in
      vat (vat ftm' t) j =
        if (L - n / 2 <=? j) && (j <? L + n / 2)
        then csum (zrange 0 (2 * L)) (fun k => if (k - j) mod n =? 0 then vat (vat ftm t) k else RtoC 0)
        else vat (vat ftm t) j.
Proof.
  intros Hn HL HT. destruct (C13_numpy_after_lemma nside L ftm reality Hn HL HT) as (ftm' & f & E & T' & R).
  exists ftm', f. split; [exact E|]. split; [exact T'|]. intros t j Ht Hj n.
  specialize (R t Ht). destruct R as (R1 & R2 & R3). fold n in R2, R3.
  pose proof (ring_length_pos nside t Hn Ht). pose proof (ring_length_le nside t).
  pose proof (nphi_half nside t) as Hev. pose proof (even_half _ Hev) as Hh. fold n in Hev, Hh, H, H0.
  destruct ((L - n / 2 <=? j) && (j <? L + n / 2)) eqn:B; [|apply R3; lia].
  replace (vat (vat ftm' t) j) with (vat (vat ftm' t) (L - n / 2 + (j - (L - n / 2)))) by (f_equal; lia).
  rewrite R2 by lia. rewrite folded_class by (auto; lia). apply cr_ext. intros k _.
  now replace (L - n / 2 + (j - (L - n / 2))) with j by lia.
Qed.
