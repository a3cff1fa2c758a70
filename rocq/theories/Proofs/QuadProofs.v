(** Lemmas on quadrature weights. *)
From Coq Require Import Reals Lra Lia ZifyBool.
From Coquelicot Require Import Coquelicot.
From Verif Require Import Lib.Py Lib.PyFacts Lib.Vec Lib.VecFacts Lib.Sums Lib.Cplx Lib.Arr Lib.MatFacts
  Model.Samples Model.Grids Model.FFT Model.Quadrature Spec.SamplesSpec Spec.SphereSpec Spec.GridSpec
  Spec.QuadSpec Proofs.SamplesProofs Proofs.GridProofs Proofs.WignerCalc Proofs.WignerGen.
Open Scope Z_scope.

(** ** The integrals of exp(i k x) sin x *)
Lemma RInt_deriv (F f : R -> R) a b : (forall x : R, is_derive F x (f x)) -> (forall x : R, continuous f x) ->
  is_RInt f a b (F b - F a)%R.
Proof. intros HF Hc. apply (is_RInt_derive (V := R_CompleteNormedModule) F f); auto. Qed.

Lemma cont_cos k x : continuous (fun y => cos (k * y)%R) x.
Proof. apply (ex_derive_continuous (V := R_NormedModule)). auto_derive. trivial. Qed.
Lemma cont_sin k x : continuous (fun y => sin (k * y)%R) x.
Proof. apply (ex_derive_continuous (V := R_NormedModule)). auto_derive. trivial. Qed.

Lemma cos_kPI k : cos (IZR k * PI) = sgn k.
Proof. exact (f_equal Re (cis_kPI k)). Qed.
Lemma sin_kPI k : sin (IZR k * PI) = 0%R.
Proof. exact (f_equal Im (cis_kPI k)). Qed.

Lemma mw_even k : Z.even k = true -> mw_weights k = RtoC (2 / IZR (1 - k ^ 2)).
Proof.
  intros E. unfold mw_weights. destruct (Z.eqb_spec k 1) as [->|]; [discriminate|].
  destruct (Z.eqb_spec k (-1)) as [->|]; [discriminate|]. rewrite Zmod_even, E. reflexivity.
Qed.
Lemma mw_odd k : Z.even k = false -> k <> 1 -> k <> -1 -> mw_weights k = RtoC 0.
Proof.
  intros E. unfold mw_weights. destruct (Z.eqb_spec k 1) as [->|]; [congruence|].
  destruct (Z.eqb_spec k (-1)) as [->|]; [congruence|]. rewrite Zmod_even, E. reflexivity.
Qed.
Lemma mw_opp k : mw_weights (- k) = Cconj (mw_weights k).
Proof.
  destruct (Z.even k) eqn:E.
  - rewrite !mw_even by (rewrite ?Z.even_opp; auto). replace ((- k) ^ 2) with (k ^ 2) by ring.
    apply C_eq; cbn; ring.
  - destruct (Z.eq_dec k 1) as [->|]; [apply C_eq; cbn; ring|].
    destruct (Z.eq_dec k (-1)) as [->|]; [apply C_eq; cbn; ring|].
    rewrite !mw_odd by (rewrite ?Z.even_opp; lia || auto). apply C_eq; cbn; ring.
Qed.

Lemma mw_cos k : is_RInt (fun x => (cos (IZR k * x) * sin x)%R) 0 PI (Re (mw_weights k)).
Proof.
  assert (Hc : forall x : R, continuous (fun x => (cos (IZR k * x) * sin x)%R) x).
  { intros x. apply (continuous_mult (K := R_AbsRing)); [apply cont_cos|apply continuous_sin]. }
  destruct (Z.eq_dec (k * k) 1) as [Hk|Hk].
  - pose proof (RInt_deriv (fun x => (sin x * sin x / 2)%R) (fun x => (cos (IZR k * x) * sin x)%R) 0 PI) as K.
    replace (Re (mw_weights k)) with (sin PI * sin PI / 2 - sin 0 * sin 0 / 2)%R.
    + apply K; auto. intros x. auto_derive; trivial.
      assert (k = 1 \/ k = -1) as [-> | ->] by nia.
      * replace (1 * x)%R with x by ring. field.
      * replace (-1 * x)%R with (- x)%R by ring. rewrite cos_neg. field.
    + rewrite sin_PI, sin_0. assert (k = 1 \/ k = -1) as [-> | ->] by nia; cbn; field.
  - assert (N1 : IZR (k - 1) <> 0%R) by (intros H; apply eq_IZR in H; nia).
    assert (N2 : IZR (k + 1) <> 0%R) by (intros H; apply eq_IZR in H; nia).
    set (F := fun x => (cos (IZR (k - 1) * x) / (2 * IZR (k - 1)) - cos (IZR (k + 1) * x) / (2 * IZR (k + 1)))%R).
    pose proof (RInt_deriv F (fun x => (cos (IZR k * x) * sin x)%R) 0 PI) as K.
    replace (Re (mw_weights k)) with (F PI - F 0)%R.
    + apply K; auto. intros x. unfold F. auto_derive; trivial.
      replace (IZR (k - 1) * x)%R with (IZR k * x - x)%R by (rewrite minus_IZR; ring).
      replace (IZR (k + 1) * x)%R with (IZR k * x + x)%R by (rewrite plus_IZR; ring).
      rewrite sin_minus, sin_plus. field. auto.
    + unfold F. rewrite !cos_kPI, !Rmult_0_r, cos_0, sgn_add, sgn_sub, !sgn_1.
      destruct (Z.even k) eqn:E.
      * rewrite mw_even by auto. cbn [Re fst RtoC]. rewrite sgn_even by auto.
        assert (M : IZR (1 - k ^ 2) = (- (IZR (k - 1) * IZR (k + 1)))%R) by (rewrite <- mult_IZR, <- opp_IZR; f_equal; ring).
        rewrite M. replace (IZR (k + 1)) with (IZR (k - 1) + 2)%R in * by (rewrite minus_IZR, plus_IZR; ring).
        field. auto.
      * rewrite mw_odd by (auto; intros ->; apply Hk; reflexivity). cbn [Re fst RtoC]. rewrite sgn_odd by auto. field. auto.
Qed.

Lemma mw_sin k : is_RInt (fun x => (sin (IZR k * x) * sin x)%R) 0 PI (Im (mw_weights k)).
Proof.
  assert (Hc : forall x : R, continuous (fun x => (sin (IZR k * x) * sin x)%R) x).
  { intros x. apply (continuous_mult (K := R_AbsRing)); [apply cont_sin|apply continuous_sin]. }
  destruct (Z.eq_dec (k * k) 1) as [Hk|Hk].
  - set (F := fun x => (IZR k * (x / 2 - sin x * cos x / 2))%R).
    pose proof (RInt_deriv F (fun x => (sin (IZR k * x) * sin x)%R) 0 PI) as K.
    replace (Im (mw_weights k)) with (F PI - F 0)%R.
    + apply K; auto. intros x. unfold F. auto_derive; trivial.
      assert (S := sin2_cos2 x). unfold Rsqr in S.
      assert (k = 1 \/ k = -1) as [-> | ->] by nia.
      * replace (1 * x)%R with x by ring. lra.
      * replace (-1 * x)%R with (- x)%R by ring. rewrite sin_neg. lra.
    + unfold F. rewrite sin_PI, sin_0. assert (k = 1 \/ k = -1) as [-> | ->] by nia; cbn; field.
  - assert (N1 : IZR (k - 1) <> 0%R) by (intros H; apply eq_IZR in H; nia).
    assert (N2 : IZR (k + 1) <> 0%R) by (intros H; apply eq_IZR in H; nia).
    set (F := fun x => (sin (IZR (k - 1) * x) / (2 * IZR (k - 1)) - sin (IZR (k + 1) * x) / (2 * IZR (k + 1)))%R).
    pose proof (RInt_deriv F (fun x => (sin (IZR k * x) * sin x)%R) 0 PI) as K.
    replace (Im (mw_weights k)) with (F PI - F 0)%R.
    + apply K; auto. intros x. unfold F. auto_derive; trivial.
      replace (IZR (k - 1) * x)%R with (IZR k * x - x)%R by (rewrite minus_IZR; ring).
      replace (IZR (k + 1) * x)%R with (IZR k * x + x)%R by (rewrite plus_IZR; ring).
      rewrite cos_minus, cos_plus. field. auto.
    + unfold F. rewrite !sin_kPI, !Rmult_0_r, sin_0.
      destruct (Z.even k) eqn:E.
      * rewrite mw_even by auto. cbn [Im snd RtoC]. field. auto.
      * rewrite mw_odd by (auto; intros ->; apply Hk; reflexivity). cbn [Im snd RtoC]. field. auto.
Qed.

(** ** From single frequencies to polynomials *)
Lemma RInt_poly (tr : R -> R) K a : (forall k x, continuous (fun x => (tr (IZR k * x) * sin x)%R) x) ->
  RInt (fun x => (rsum (zrange 0 K) (fun k => a k * tr (IZR k * x)) * sin x)%R) 0 PI
  = rsum (zrange 0 K) (fun k => (a k * RInt (fun x => tr (IZR k * x) * sin x) 0 PI)%R).
Proof.
  intros Hc. assert (E : forall k, ex_RInt (fun x => (tr (IZR k * x) * sin x)%R) 0 PI).
  { intros k. apply (ex_RInt_continuous (V := R_CompleteNormedModule)). intros; apply Hc. }
  apply is_RInt_unique. eapply is_RInt_ext; [intros x _; apply (rs_scal_r (zrange 0 K) (sin x))|].
  rewrite (rr_ext 0 K (fun k => (a k * RInt (fun x => tr (IZR k * x) * sin x) 0 PI)%R)
    (fun k => RInt (fun x => (a k * tr (IZR k * x) * sin x)%R) 0 PI)).
  - apply RInt_rsum. intros k _. eapply ex_RInt_ext; [|apply (ex_RInt_scal (V := R_NormedModule) _ 0 PI (a k) (E k))].
    intros x _. cbn. unfold scal. cbn. unfold mult. cbn. ring.
  - intros k _. etransitivity; [symmetry; exact (RInt_scal (V := R_CompleteNormedModule) _ 0 PI (a k) (E k))|].
    apply RInt_extR. intros. unfold scal. cbn. unfold mult. cbn. ring.
Qed.

Lemma rule_poly n m w th (tr : R -> R) K a I :
  (forall k, 0 <= k < K -> rsum (zrange 0 n) (fun t => (w t * tr (IZR k * th t))%R) = I k) ->
  rsum (zrange 0 n) (fun t => (m * w t * rsum (zrange 0 K) (fun k => a k * tr (IZR k * th t)))%R)
  = (m * rsum (zrange 0 K) (fun k => (a k * I k)%R))%R.
Proof.
  intros H. rewrite (rr_ext 0 n _ (fun t => (m * rsum (zrange 0 K) (fun k => a k * (w t * tr (IZR k * th t))))%R)).
  - rewrite rs_scal_l. f_equal. rewrite rs_swap. apply rr_ext. intros k Hk. rewrite rs_scal_l, H by lia. reflexivity.
  - intros t _. rewrite Rmult_assoc, <- (rs_scal_l _ (w t)). f_equal. apply rr_ext. intros. ring.
Qed.

Lemma cos_exact n m w th K a : 
  (forall k, 0 <= k < K -> rsum (zrange 0 n) (fun t => (IZR m * vat w t * cos (IZR k * th t))%R) = (2 * PI * Re (mw_weights k))%R) ->
  ring_rule n m w th (cos_poly K a) = sphere_integral (cos_poly K a).
Proof.
  intros H. unfold ring_rule, sphere_integral, cos_poly. rewrite (RInt_poly cos).
  - rewrite (rr_ext 0 K _ (fun k => (a k * Re (mw_weights k))%R)) by (intros; now rewrite (is_RInt_unique _ _ _ _ (mw_cos _))).
    rewrite (rr_ext 0 n _ (fun t => (1 * (IZR m * vat w t) * rsum (zrange 0 K) (fun k => a k * cos (IZR k * th t)))%R)) by (intros; ring).
    rewrite (rule_poly n 1 (fun t => IZR m * vat w t)%R th cos K a (fun k => (2 * PI * Re (mw_weights k))%R)) by (intros; now apply H).
    rewrite Rmult_1_l, <- rs_scal_l. apply rr_ext. intros. ring.
  - intros. apply (continuous_mult (K := R_AbsRing)); [apply cont_cos|apply continuous_sin].
Qed.
Lemma sin_exact n m w th K a : 
  (forall k, 0 <= k < K -> rsum (zrange 0 n) (fun t => (IZR m * vat w t * sin (IZR k * th t))%R) = (2 * PI * Im (mw_weights k))%R) ->
  ring_rule n m w th (sin_poly K a) = sphere_integral (sin_poly K a).
Proof.
  intros H. unfold ring_rule, sphere_integral, sin_poly. rewrite (RInt_poly sin).
  - rewrite (rr_ext 0 K _ (fun k => (a k * Im (mw_weights k))%R)) by (intros; now rewrite (is_RInt_unique _ _ _ _ (mw_sin _))).
    rewrite (rr_ext 0 n _ (fun t => (1 * (IZR m * vat w t) * rsum (zrange 0 K) (fun k => a k * sin (IZR k * th t)))%R)) by (intros; ring).
    rewrite (rule_poly n 1 (fun t => IZR m * vat w t)%R th sin K a (fun k => (2 * PI * Im (mw_weights k))%R)) by (intros; now apply H).
    rewrite Rmult_1_l, <- rs_scal_l. apply rr_ext. intros. ring.
  - intros. apply (continuous_mult (K := R_AbsRing)); [apply cont_sin|apply continuous_sin].
Qed.

(** ** Weights from the Fourier coefficients of the measure *)
Definition equi_weight (L n : Z) (x : R) : R :=
  (Re (csum (zrange (- (L - 1)) L) (fun k => mw_weights k * cis (- (IZR k * x)))%C) / IZR n)%R.

Lemma equi_weight_C L n x : 0 < n -> RtoC (equi_weight L n x)
  = (csum (zrange (- (L - 1)) L) (fun k => mw_weights k * cis (- (IZR k * x))) / RtoC (IZR n))%C.
Proof.
  intros Hn. unfold equi_weight. set (s := csum _ _).
  assert (E : Cconj s = s).
  { unfold s. rewrite csum_conj. rewrite <- cr_rev. apply cr_ext. intros k Hk.
    rewrite Cconj_mult, <- mw_opp, cis_conj, Ropp_involutive. f_equal; [f_equal; lia|]. f_equal.
    replace (- (L - 1) + L - 1 - k) with (- k) by lia. rewrite opp_IZR. ring. }
  assert (E' : s = RtoC (Re s)).
  { apply C_eq; [reflexivity|]. apply (f_equal Im) in E. clearbody s. destruct s as [u v]. cbn in E |- *. lra. }
  rewrite E' at 2. rewrite RtoC_div by (apply (IZR_neq n 0); lia). reflexivity.
Qed.

Lemma equi_exact L n th0 (th : Z -> R) j : 1 <= L -> 2 * L - 1 <= n ->
  (forall t, th t = th0 + 2 * PI * IZR t / IZR n)%R -> - L < j < L ->
  csum (zrange 0 n) (fun t => RtoC (equi_weight L n (th t)) * cis (IZR j * th t))%C = mw_weights j.
Proof.
  intros HL Hn Hth Hj. assert (N : RtoC (IZR n) <> RtoC 0) by (intros E; apply RtoC_inj in E; apply (IZR_neq n 0) in E; auto; lia).
  rewrite (cr_ext 0 n _ (fun t => csum (zrange (- (L - 1)) L) (fun k =>
    (mw_weights k * cis (IZR (j - k) * th0) * root n ((j - k) * t) / RtoC (IZR n))%C))).
  - rewrite cs_swap. rewrite (cr_ext (- (L - 1)) L _ (fun k => if k =? j then mw_weights k else RtoC 0)).
    + apply cr_delta. lia.
    + intros k Hk. rewrite (cr_ext 0 n _ (fun t => (mw_weights k * cis (IZR (j - k) * th0) / RtoC (IZR n) * root n ((j - k) * t))%C)).
      2:{ intros. field. auto. }
      rewrite cs_scal_l, root_sum by lia. destruct (Z.eqb_spec k j) as [->|E].
      * rewrite Z.sub_diag, Zmod_0_l. cbn [Z.eqb]. rewrite Rmult_0_l, cis_0. field. auto.
      * assert (K : (j - k) mod n <> 0).
        { intros Z0. apply Z.mod_divide in Z0; [|lia]. destruct Z0 as [q Hq]. assert (q = 0) by nia. lia. }
        apply Z.eqb_neq in K. rewrite K. ring.
  - intros t Ht. rewrite equi_weight_C by lia. unfold Cdiv. rewrite <- !cs_scal_r. apply cr_ext. intros k Hk.
    rewrite (Hth t). transitivity (mw_weights k * (cis (- (IZR k * (th0 + 2 * PI * IZR t / IZR n))) *
       cis (IZR j * (th0 + 2 * PI * IZR t / IZR n))) * / RtoC (IZR n))%C; [ring|].
    unfold root. rewrite <- cis_plus.
    transitivity (mw_weights k * (cis (IZR (j - k) * th0) * cis (2 * PI * IZR ((j - k) * t) / IZR n)) * / RtoC (IZR n))%C; [|ring].
    rewrite <- cis_plus. do 3 f_equal. rewrite mult_IZR, minus_IZR. unfold Rdiv. ring.
Qed.

Lemma equi_cos L n th0 th j : 1 <= L -> 2 * L - 1 <= n ->
  (forall t, th t = th0 + 2 * PI * IZR t / IZR n)%R -> - L < j < L ->
  rsum (zrange 0 n) (fun t => equi_weight L n (th t) * cos (IZR j * th t))%R = Re (mw_weights j).
Proof.
  intros. rewrite <- (equi_exact L n th0 th j) by auto. rewrite Re_csum. apply rr_ext. intros. cbn. ring.
Qed.
Lemma equi_sin L n th0 th j : 1 <= L -> 2 * L - 1 <= n ->
  (forall t, th t = th0 + 2 * PI * IZR t / IZR n)%R -> - L < j < L ->
  rsum (zrange 0 n) (fun t => equi_weight L n (th t) * sin (IZR j * th t))%R = Im (mw_weights j).
Proof.
  intros. rewrite <- (equi_exact L n th0 th j) by auto. rewrite Im_csum. apply rr_ext. intros. cbn. ring.
Qed.

Lemma fft_ifftshift (w : vec C) n p : 0 < n -> vlen w = n ->
  vat (fft_bwd (ifftshift w)) p
  = csum (zrange (- (n / 2)) (- (n / 2) + n)) (fun m => (vat w (m + n / 2)%Z * root n (- (p * m)))%C).
Proof.
  intros Hn Hl. subst n. cbn [ifftshift fft_bwd vlen vat]. set (n := vlen w) in *.
  rewrite <- (cr_period n (- (n / 2)) (fun k => (vat w ((k + n / 2) mod n) * root n (- (p * k)))%C)).
  - apply cr_ext. intros m Hm. rewrite Z.mod_small by lia. reflexivity.
  - lia.
  - intros x. f_equal.
    + f_equal. replace (x + n + n / 2) with (x + n / 2 + 1 * n) by lia. apply Z.mod_add. lia.
    + apply root_congr; [lia|]. replace (- (p * (x + n))) with (- (p * x) + - p * n) by ring. apply Z.mod_add. lia.
Qed.

Lemma vwrite_range {A} (g : Z -> A) c a b (v : vec A) : 0 <= a + c -> b + c <= vlen v ->
  exists v', foldM (fun w i => vwrite w (i + c) (g i)) (zrange a b) v = Ok v' /\ vlen v' = vlen v /\
    forall j, vat v' j = if (a <=? j - c) && (j - c <? b) then g (j - c) else vat v j.
Proof.
  intros Ha Hb. destruct (vwrite_loop (fun i => i + c) g (fun w i => vwrite w (i + c) (g i)) (zrange a b) v) as (v' & E & El & H1 & H2).
  - auto.
  - intros x Hx. apply in_zrange in Hx. lia.
  - apply zrange_NoDup.
  - intros; lia.
  - exists v'. split; [exact E|]. split; [exact El|]. intros j. destruct ((a <=? j - c) && (j - c <? b)) eqn:B.
    + specialize (H1 (j - c)). rewrite Z.sub_add in H1. apply H1. apply in_zrange. lia.
    + apply H2. intros x Hx. apply in_zrange in Hx. lia.
Qed.

Lemma vadd_slice_ok q s e c w : 0 <= s -> s <= e -> e <= vlen q -> vlen w = e - s ->
  exists v, vadd_slice q s e c w = Ok v /\ vlen v = vlen q /\
    forall j, vat v j = (vat q j + if (s <=? j) && (j <? e) then c * vat w (j - s) else 0)%R.
Proof.
  intros Hs He Hq Hw. unfold vadd_slice. rewrite vslice_in by lia. cbn [vlen vat]. rewrite Hw, Z.eqb_refl. cbn [negb].
  rewrite vassign_in by (cbn; lia). eexists. split; [reflexivity|]. cbn [vlen vat]. split; [reflexivity|].
  intros j. replace (s + (e - s)) with e by lia. destruct ((s <=? j) && (j <? e)); [|ring].
  replace (s + (j - s)) with j by lia. reflexivity.
Qed.

Lemma mwss_weights_ok L spin : 1 <= L -> exists q, quad_weights_mwss_theta_only L spin = Ok q /\ vlen q = L + 1 /\
  forall t, 0 <= t <= L -> vat q t = (equi_weight L (2 * L) (mwss_theta L t) +
    if (1 <=? t) && (t <? L) then sgn spin * equi_weight L (2 * L) (mwss_theta L (2 * L - t)) else 0)%R.
Proof.
  intros HL. unfold quad_weights_mwss_theta_only.
  destruct (vwrite_range (fun i => mw_weights (i - 1)) (L - 1) (- (L - 1) + 1) (L + 1) (vconst (2 * L) (RtoC 0))) as (w & E & El & Hw);
    [lia|cbn [vlen vconst]; lia|].
  rewrite (foldM_ext _ (fun w i => vwrite w (i + (L - 1)) (mw_weights (i - 1)))) by (intros; f_equal; lia).
  rewrite E. cbn [bind]. cbn [vlen vconst] in El.
  set (wr := vmap _ _). assert (Hwr : forall t, vat wr t = equi_weight L (2 * L) (mwss_theta L t)).
  { intros t. unfold wr. cbn [vmap vat]. unfold equi_weight. do 2 f_equal.
    rewrite (fft_ifftshift w (2 * L)) by (auto; lia). replace (2 * L / 2) with L by (rewrite Z.mul_comm, Z.div_mul; lia).
    replace (- L + 2 * L) with L by lia. rewrite cr_cons by lia.
    replace (- L + 1) with (- (L - 1)) by lia. rewrite Hw. zif. cbn [vconst vat]. rewrite Cmult_0_l, Cplus_0_l.
    apply cr_ext. intros k Hk. rewrite Hw. zif. f_equal; [f_equal; lia|]. unfold root. f_equal. unfold mwss_theta.
    rewrite opp_IZR, !mult_IZR. field. apply (IZR_neq L 0). lia. }
  assert (Lwr : vlen wr = 2 * L) by exact El.
  destruct (vadd_slice_ok (vslice wr 0 (L + 1)) 1 L (sgn spin) (vrev_down wr L)) as (q & Eq & Lq & Hq).
  - lia. - lia. - rewrite vslice_in by lia. cbn [vlen]. lia. - cbn [vrev_down vlen]. lia.
  - exists q. rewrite vslice_in in Lq, Hq by lia. cbn [vlen vat] in Lq, Hq. split; [exact Eq|]. split; [lia|].
    intros t Ht. rewrite Hq, Z.add_0_l, Hwr. f_equal. destruct ((1 <=? t) && (t <? L)); [|reflexivity].
    cbn [vrev_down vat]. rewrite Hwr, Lwr. do 3 f_equal. lia.
Qed.

Lemma mw_weights_ok L spin : 1 <= L -> exists q, quad_weights_mw_theta_only L spin = Ok q /\ vlen q = L /\
  forall t, 0 <= t < L -> vat q t = (equi_weight L (2 * L - 1) (mw_theta L t) +
    if t <? L - 1 then sgn spin * equi_weight L (2 * L - 1) (mw_theta L (2 * L - 2 - t)) else 0)%R.
Proof.
  intros HL. unfold quad_weights_mw_theta_only.
  destruct (vwrite_range mw_weights (L - 1) (- (L - 1)) L (vconst (2 * L - 1) (RtoC 0))) as (w & E & El & Hw);
    [lia|cbn [vlen vconst]; lia|].
  rewrite (foldM_ext _ (fun w i => vwrite w (i + (L - 1)) (mw_weights i))) by (intros; f_equal; lia).
  rewrite E. cbn [bind]. cbn [vlen vconst] in El. set (w' := mkVec _ _).
  set (wr := vmap _ _). assert (Hwr : forall t, vat wr t = equi_weight L (2 * L - 1) (mw_theta L t)).
  { intros t. unfold wr. cbn [vmap vat]. unfold equi_weight. do 2 f_equal.
    rewrite (fft_ifftshift w' (2 * L - 1)) by (exact El || lia).
    replace ((2 * L - 1) / 2) with (L - 1) by (apply (Z.div_unique _ _ _ 1); lia).
    replace (- (L - 1) + (2 * L - 1)) with L by lia.
    apply cr_ext. intros k Hk. unfold w'. cbn [vat]. rewrite Hw. zif. rewrite <- Cmult_assoc. f_equal; [f_equal; lia|].
    unfold root. rewrite <- cis_plus. f_equal. unfold mw_theta. replace (- (L - 1) + (k + (L - 1))) with k by lia.
    rewrite opp_IZR, plus_IZR, !mult_IZR. field. apply (IZR_neq (2 * L - 1) 0). lia. }
  assert (Lwr : vlen wr = 2 * L - 1) by exact El.
  destruct (vadd_slice_ok (vslice wr 0 L) 0 (L - 1) (sgn spin) (vrev_down wr (L - 1))) as (q & Eq & Lq & Hq).
  - lia. - lia. - rewrite vslice_in by lia. cbn [vlen]. lia. - cbn [vrev_down vlen]. lia.
  - exists q. rewrite vslice_in in Lq, Hq by lia. cbn [vlen vat] in Lq, Hq. split; [exact Eq|]. split; [lia|].
    intros t Ht. rewrite Hq, Z.add_0_l, Hwr. f_equal. replace (0 <=? t) with true by lia. cbn [andb].
    destruct (t <? L - 1); [|reflexivity].
    cbn [vrev_down vat]. rewrite Hwr, Lwr. do 3 f_equal. lia.
Qed.

(** Folding the second half of the circle onto [0, pi]. *)
Lemma fold_mwss L spin (w : Z -> R) (h : Z -> R) : 1 <= L -> (forall t, 1 <= t < L -> h (2 * L - t) = (sgn spin * h t)%R) ->
  rsum (zrange 0 (L + 1)) (fun t => ((w t + if ((1 <=? t) && (t <? L))%Z then sgn spin * w (2 * L - t)%Z else 0) * h t)%R)
  = rsum (zrange 0 (2 * L)) (fun t => (w t * h t)%R).
Proof.
  intros HL Hh. rewrite (rr_split 0 (L + 1) (2 * L)) by lia.
  rewrite (rr_ext 0 (L + 1) _ (fun t => (w t * h t + (if ((1 <=? t) && (t <? L))%Z then w (2 * L - t)%Z * h (2 * L - t)%Z else 0))%R)).
  - rewrite rs_plus. f_equal. rewrite (rr_shrink 0 (L + 1) 1 L) by (try lia; intros; zif; reflexivity).
    rewrite (rr_ext 1 L _ (fun t => (fun u => w (u + L)%Z * h (u + L)%Z)%R (1 + L - 1 - t)%Z)).
    + rewrite (rr_rev 1 L (fun u => w (u + L)%Z * h (u + L)%Z)%R). rewrite (rr_shift 1 L L (fun u => (w u * h u)%R)). do 2 f_equal; lia.
    + intros t Ht. zif. replace (1 + L - 1 - t + L) with (2 * L - t) by lia. reflexivity.
  - intros t Ht. destruct ((1 <=? t) && (t <? L)) eqn:B; [|ring]. rewrite (Hh t) by lia.
    rewrite Rmult_plus_distr_r. ring.
Qed.
Lemma fold_mw L spin (w : Z -> R) (h : Z -> R) : 1 <= L -> (forall t, 0 <= t < L - 1 -> h (2 * L - 2 - t) = (sgn spin * h t)%R) ->
  rsum (zrange 0 L) (fun t => ((w t + if (t <? L - 1)%Z then sgn spin * w (2 * L - 2 - t)%Z else 0) * h t)%R)
  = rsum (zrange 0 (2 * L - 1)) (fun t => (w t * h t)%R).
Proof.
  intros HL Hh. rewrite (rr_split 0 L (2 * L - 1)) by lia.
  rewrite (rr_ext 0 L _ (fun t => (w t * h t + (if (t <? L - 1)%Z then w (2 * L - 2 - t)%Z * h (2 * L - 2 - t)%Z else 0))%R)).
  - rewrite rs_plus. f_equal. rewrite (rr_shrink 0 L 0 (L - 1)) by (try lia; intros; zif; reflexivity).
    rewrite (rr_ext 0 (L - 1) _ (fun t => (fun u => w (u + L)%Z * h (u + L)%Z)%R (0 + (L - 1) - 1 - t)%Z)).
    + rewrite (rr_rev 0 (L - 1) (fun u => w (u + L)%Z * h (u + L)%Z)%R). rewrite (rr_shift 0 (L - 1) L (fun u => (w u * h u)%R)). do 2 f_equal; lia.
    + intros t Ht. zif. replace (0 + (L - 1) - 1 - t + L) with (2 * L - 2 - t) by lia. reflexivity.
  - intros t Ht. destruct (t <? L - 1) eqn:B; [|ring]. rewrite (Hh t) by lia.
    rewrite Rmult_plus_distr_r. ring.
Qed.

Lemma mwss_th L t : L <> 0 -> mwss_theta L t = (0 + 2 * PI * IZR t / IZR (2 * L))%R.
Proof. intros H. unfold mwss_theta. rewrite mult_IZR. field. now apply (IZR_neq L 0). Qed.
Lemma mw_th L t : 1 <= L -> mw_theta L t = (PI / IZR (2 * L - 1) + 2 * PI * IZR t / IZR (2 * L - 1))%R.
Proof. intros H. unfold mw_theta. rewrite plus_IZR, mult_IZR. field. apply (IZR_neq (2 * L - 1) 0). lia. Qed.

Lemma cis_reflect k x : cis (IZR k * (2 * PI - x)) = Cconj (cis (IZR k * x)).
Proof.
  rewrite cis_conj. replace (IZR k * (2 * PI - x))%R with (- (IZR k * x) + 2 * PI * IZR k)%R by ring. apply cis_period.
Qed.
Lemma cos_reflect k x : cos (IZR k * (2 * PI - x)) = cos (IZR k * x).
Proof. exact (f_equal Re (cis_reflect k x)). Qed.
Lemma sin_reflect k x : sin (IZR k * (2 * PI - x)) = (- sin (IZR k * x))%R.
Proof. exact (f_equal Im (cis_reflect k x)). Qed.
Lemma mwss_reflect L t : 1 <= L -> mwss_theta L (2 * L - t) = (2 * PI - mwss_theta L t)%R.
Proof. intros. unfold mwss_theta. rewrite minus_IZR, mult_IZR. field. apply (IZR_neq L 0). lia. Qed.
Lemma mw_reflect L t : 1 <= L -> mw_theta L (2 * L - 2 - t) = (2 * PI - mw_theta L t)%R.
Proof.
  intros. unfold mw_theta. replace (2 * (2 * L - 2 - t) + 1) with (2 * (2 * L - 1) - (2 * t + 1)) by lia.
  rewrite minus_IZR, (mult_IZR 2). field. apply (IZR_neq (2 * L - 1) 0). lia.
Qed.

(** The theta-only weights: exact for the frequencies below L of matching parity. *)
Lemma mwss_cos L spin q k : 1 <= L -> Z.even spin = true -> quad_weights_mwss_theta_only L spin = Ok q -> - L < k < L ->
  rsum (zrange 0 (L + 1)) (fun t => (vat q t * cos (IZR k * mwss_theta L t))%R) = Re (mw_weights k).
Proof.
  intros HL Hs E Hk. destruct (mwss_weights_ok L spin HL) as (q' & E' & _ & Hq). rewrite E in E'. injection E' as <-.
  rewrite (rr_ext 0 (L + 1) _ (fun t => ((equi_weight L (2 * L) (mwss_theta L t) +
    if ((1 <=? t) && (t <? L))%Z then sgn spin * equi_weight L (2 * L) (mwss_theta L (2 * L - t)) else 0) * cos (IZR k * mwss_theta L t))%R))
    by (intros; now rewrite Hq by lia).
  rewrite (fold_mwss L spin (fun t => equi_weight L (2 * L) (mwss_theta L t)) (fun t => cos (IZR k * mwss_theta L t))).
  - apply (equi_cos L (2 * L) 0); try lia. intros. apply mwss_th. lia.
  - auto.
  - intros t Ht. rewrite mwss_reflect, cos_reflect, sgn_even by auto. ring.
Qed.
Lemma mwss_sin L spin q k : 1 <= L -> Z.even spin = false -> quad_weights_mwss_theta_only L spin = Ok q -> - L < k < L ->
  rsum (zrange 0 (L + 1)) (fun t => (vat q t * sin (IZR k * mwss_theta L t))%R) = Im (mw_weights k).
Proof.
  intros HL Hs E Hk. destruct (mwss_weights_ok L spin HL) as (q' & E' & _ & Hq). rewrite E in E'. injection E' as <-.
  rewrite (rr_ext 0 (L + 1) _ (fun t => ((equi_weight L (2 * L) (mwss_theta L t) +
    if ((1 <=? t) && (t <? L))%Z then sgn spin * equi_weight L (2 * L) (mwss_theta L (2 * L - t)) else 0) * sin (IZR k * mwss_theta L t))%R))
    by (intros; now rewrite Hq by lia).
  rewrite (fold_mwss L spin (fun t => equi_weight L (2 * L) (mwss_theta L t)) (fun t => sin (IZR k * mwss_theta L t))).
  - apply (equi_sin L (2 * L) 0); try lia. intros. apply mwss_th. lia.
  - auto.
  - intros t Ht. rewrite mwss_reflect, sin_reflect, sgn_odd by auto. ring.
Qed.
Lemma mw_cos_rule L spin q k : 1 <= L -> Z.even spin = true -> quad_weights_mw_theta_only L spin = Ok q -> - L < k < L ->
  rsum (zrange 0 L) (fun t => (vat q t * cos (IZR k * mw_theta L t))%R) = Re (mw_weights k).
Proof.
  intros HL Hs E Hk. destruct (mw_weights_ok L spin HL) as (q' & E' & _ & Hq). rewrite E in E'. injection E' as <-.
  rewrite (rr_ext 0 L _ (fun t => ((equi_weight L (2 * L - 1) (mw_theta L t) +
    if (t <? L - 1)%Z then sgn spin * equi_weight L (2 * L - 1) (mw_theta L (2 * L - 2 - t)) else 0) * cos (IZR k * mw_theta L t))%R))
    by (intros; now rewrite Hq by lia).
  rewrite (fold_mw L spin (fun t => equi_weight L (2 * L - 1) (mw_theta L t)) (fun t => cos (IZR k * mw_theta L t))).
  - apply (equi_cos L (2 * L - 1) (PI / IZR (2 * L - 1))); try lia. intros. now apply mw_th.
  - auto.
  - intros t Ht. rewrite mw_reflect, cos_reflect, sgn_even by auto. ring.
Qed.
Lemma mw_sin_rule L spin q k : 1 <= L -> Z.even spin = false -> quad_weights_mw_theta_only L spin = Ok q -> - L < k < L ->
  rsum (zrange 0 L) (fun t => (vat q t * sin (IZR k * mw_theta L t))%R) = Im (mw_weights k).
Proof.
  intros HL Hs E Hk. destruct (mw_weights_ok L spin HL) as (q' & E' & _ & Hq). rewrite E in E'. injection E' as <-.
  rewrite (rr_ext 0 L _ (fun t => ((equi_weight L (2 * L - 1) (mw_theta L t) +
    if (t <? L - 1)%Z then sgn spin * equi_weight L (2 * L - 1) (mw_theta L (2 * L - 2 - t)) else 0) * sin (IZR k * mw_theta L t))%R))
    by (intros; now rewrite Hq by lia).
  rewrite (fold_mw L spin (fun t => equi_weight L (2 * L - 1) (mw_theta L t)) (fun t => sin (IZR k * mw_theta L t))).
  - apply (equi_sin L (2 * L - 1) (PI / IZR (2 * L - 1))); try lia. intros. now apply mw_th.
  - auto.
  - intros t Ht. rewrite mw_reflect, sin_reflect, sgn_odd by auto. ring.
Qed.

(** ** Driscoll-Healy *)
Lemma dh_cos_sum L c : 1 <= L -> c mod (2 * L) <> 0 ->
  rsum (zrange 0 (2 * L)) (fun t => cos (IZR (2 * c) * dh_theta L t)) = 0%R.
Proof.
  intros HL Hc. set (n := 2 * L).
  assert (E : csum (zrange 0 n) (fun t => cis (IZR (2 * c) * dh_theta L t)) = RtoC 0).
  { rewrite (cr_ext 0 n _ (fun t => (cis (IZR c * PI / IZR n) * root n (c * t))%C)).
    - rewrite cs_scal_l, root_sum by lia. apply Z.eqb_neq in Hc. fold n in Hc. rewrite Hc. ring.
    - intros t Ht. unfold root. rewrite <- cis_plus. f_equal. unfold dh_theta. replace (4 * L) with (2 * n) by lia.
      rewrite plus_IZR, !mult_IZR. field. apply (IZR_neq n 0). lia. }
  apply (f_equal Re) in E. rewrite Re_csum in E. exact E.
Qed.

Lemma dh_orth L a b : 1 <= L -> 0 <= a < L -> 0 <= b < L ->
  rsum (zrange 0 (2 * L)) (fun t => (sin (IZR (2 * a + 1) * dh_theta L t) * sin (IZR (2 * b + 1) * dh_theta L t))%R)
  = if a =? b then IZR L else 0%R.
Proof.
  intros HL Ha Hb.
  rewrite (rr_ext 0 (2 * L) _ (fun t => (/ 2 * cos (IZR (2 * (a - b)) * dh_theta L t) +
     - / 2 * cos (IZR (2 * (a + b + 1)) * dh_theta L t))%R)).
  - rewrite rs_plus, !rs_scal_l. rewrite (dh_cos_sum L (a + b + 1)).
    2:{ lia. } 2:{ rewrite Z.mod_small; lia. }
    destruct (Z.eqb_spec a b) as [->|E].
    + rewrite Z.sub_diag. rewrite (rr_ext 0 (2 * L) _ (fun t => 1%R)).
      * rewrite rsum_const, zrange_length, INR_toZ, Z.sub_0_r, mult_IZR by lia. field.
      * intros. rewrite Rmult_0_l. apply cos_0.
    + rewrite dh_cos_sum; [ring|lia|]. intros Z0. apply Z.mod_divide in Z0; [|lia]. destruct Z0 as [q Hq].
      assert (q = 0) by nia. lia.
  - intros t _. set (x := dh_theta L t).
    replace (IZR (2 * (a - b)) * x)%R with (IZR (2 * a + 1) * x - IZR (2 * b + 1) * x)%R
      by (rewrite !plus_IZR, !mult_IZR, minus_IZR; ring).
    replace (IZR (2 * (a + b + 1)) * x)%R with (IZR (2 * a + 1) * x + IZR (2 * b + 1) * x)%R
      by (rewrite !plus_IZR, !mult_IZR, !plus_IZR; ring).
    rewrite cos_minus, cos_plus. field.
Qed.

Lemma dh_pure L b : 1 <= L -> 0 <= b < L ->
  rsum (zrange 0 (2 * L)) (fun t => (rsum (zrange 0 L) (fun k => sin (IZR (2 * k + 1) * dh_theta L t) / IZR (2 * k + 1))
     * sin (IZR (2 * b + 1) * dh_theta L t))%R) = (IZR L / IZR (2 * b + 1))%R.
Proof.
  intros HL Hb.
  rewrite (rr_ext 0 (2 * L) _ (fun t => rsum (zrange 0 L) (fun k => (/ IZR (2 * k + 1) *
    (sin (IZR (2 * k + 1) * dh_theta L t) * sin (IZR (2 * b + 1) * dh_theta L t)))%R))).
  - rewrite rs_swap. rewrite (rr_ext 0 L _ (fun k => if k =? b then (IZR L / IZR (2 * k + 1))%R else 0%R)).
    + now apply rr_delta.
    + intros k Hk. rewrite rs_scal_l, dh_orth by lia. destruct (k =? b); unfold Rdiv; ring.
  - intros t _. rewrite <- rs_scal_r. apply rr_ext. intros. unfold Rdiv. ring.
Qed.

Lemma dh_pure_neg L b : 1 <= L -> - L <= b < L ->
  rsum (zrange 0 (2 * L)) (fun t => (rsum (zrange 0 L) (fun k => sin (IZR (2 * k + 1) * dh_theta L t) / IZR (2 * k + 1))
     * sin (IZR (2 * b + 1) * dh_theta L t))%R) = (IZR L / IZR (2 * b + 1))%R.
Proof.
  intros HL Hb. destruct (Z_le_dec 0 b); [apply dh_pure; lia|].
  rewrite (rr_ext 0 (2 * L) _ (fun t => (-1 * (rsum (zrange 0 L) (fun k => sin (IZR (2 * k + 1) * dh_theta L t) / IZR (2 * k + 1))
     * sin (IZR (2 * (- b - 1) + 1) * dh_theta L t)))%R)).
  - rewrite rs_scal_l, dh_pure by lia. replace (2 * b + 1) with (- (2 * (- b - 1) + 1)) by lia. rewrite opp_IZR.
    field. apply (IZR_neq _ 0). lia.
  - intros t _. replace (2 * b + 1) with (- (2 * (- b - 1) + 1)) by lia. rewrite opp_IZR.
    replace (- IZR (2 * (- b - 1) + 1) * dh_theta L t)%R with (- (IZR (2 * (- b - 1) + 1) * dh_theta L t))%R by ring.
    rewrite sin_neg. ring.
Qed.

Lemma dh_cos L k : 1 <= L -> - (2 * L) < k < 2 * L ->
  rsum (zrange 0 (2 * L)) (fun t => (quad_weight_dh_theta_only (dh_theta L t) L * cos (IZR k * dh_theta L t))%R)
  = Re (mw_weights k).
Proof.
  intros HL Hk. unfold quad_weight_dh_theta_only. assert (N : IZR L <> 0%R) by (apply (IZR_neq L 0); lia).
  destruct (Z.even k) eqn:E.
  - rewrite mw_even by auto. assert (P := E). apply Z.even_spec in P. destruct P as [j ->].
    set (S := fun t => rsum (zrange 0 L) (fun k => (sin (IZR (2 * k + 1) * dh_theta L t) / IZR (2 * k + 1))%R)).
    rewrite (rr_ext 0 (2 * L) _ (fun t => (/ IZR L * (S t * sin (IZR (2 * j + 1) * dh_theta L t))
      + - / IZR L * (S t * sin (IZR (2 * (j - 1) + 1) * dh_theta L t)))%R)).
    + rewrite rs_plus, !rs_scal_l. unfold S. rewrite !dh_pure_neg by lia. cbn [Re fst RtoC].
      assert (N1 : IZR (2 * j + 1) <> 0%R) by (apply (IZR_neq _ 0); lia).
      assert (N2 : IZR (2 * (j - 1) + 1) <> 0%R) by (apply (IZR_neq _ 0); lia).
      replace (1 - (2 * j) ^ 2) with (- ((2 * j + 1) * (2 * (j - 1) + 1))) by ring.
      rewrite opp_IZR, mult_IZR. replace (IZR (2 * (j - 1) + 1)) with (IZR (2 * j + 1) - 2)%R in *
        by (rewrite !plus_IZR, !mult_IZR, minus_IZR; ring).
      field. auto.
    + intros t _. fold (S t). set (x := dh_theta L t). 
      replace (IZR (2 * (j - 1) + 1) * x)%R with (IZR (2 * j) * x - x)%R
        by (rewrite !plus_IZR, !mult_IZR, minus_IZR; ring).
      replace (IZR (2 * j + 1) * x)%R with (IZR (2 * j) * x + x)%R by (rewrite !plus_IZR; ring).
      rewrite sin_minus, sin_plus. field. auto.
  - assert (Z0 : Re (mw_weights k) = 0%R).
    { destruct (Z.eq_dec k 1) as [->|]; [cbn; ring|]. destruct (Z.eq_dec k (-1)) as [->|]; [cbn; ring|].
      now rewrite mw_odd by auto. }
    rewrite Z0. set (f := fun t => _). assert (O : rsum (zrange 0 (2 * L)) f = (- rsum (zrange 0 (2 * L)) f)%R); [|lra].
    rewrite <- (rr_rev 0 (2 * L) f) at 1. rewrite <- (Rmult_1_l (rsum _ f)), <- Ropp_mult_distr_l_reverse, <- rs_scal_l.
    apply rr_ext. intros t Ht. unfold f.
    assert (R : dh_theta L (0 + 2 * L - 1 - t) = (PI - dh_theta L t)%R).
    { unfold dh_theta. replace (2 * (0 + 2 * L - 1 - t) + 1) with (4 * L - (2 * t + 1)) by lia. rewrite minus_IZR.
      field. apply (IZR_neq _ 0). lia. }
    rewrite R. set (x := dh_theta L t). 
    assert (So : forall j, sin (IZR (2 * j + 1) * (PI - x)) = sin (IZR (2 * j + 1) * x)).
    { intros j. replace (IZR (2 * j + 1) * (PI - x))%R with (IZR (2 * j + 1) * PI - IZR (2 * j + 1) * x)%R by ring.
      rewrite sin_minus, sin_kPI, cos_kPI, sgn_add, sgn_double, sgn_1. ring. }
    rewrite (rr_ext 0 L _ (fun k => (sin (IZR (2 * k + 1) * x) / IZR (2 * k + 1))%R)) by (intros; now rewrite So).
    replace (sin (PI - x)) with (sin x) by (symmetry; exact (sin_PI_x x)).
    replace (IZR k * (PI - x))%R with (IZR k * PI - IZR k * x)%R by ring.
    rewrite cos_minus, sin_kPI, cos_kPI, sgn_odd by auto. ring.
Qed.

(** ** Gauss-Legendre *)
Lemma RInt_pow_sym j : RInt (fun y => (y ^ j)%R) (-1) 1 = RInt (fun x => (cos x ^ j * sin x)%R) 0 PI.
Proof.
  assert (N : INR (S j) <> 0%R) by (apply not_0_INR; lia).
  assert (A : is_RInt (fun y => (y ^ j)%R) (-1) 1 (1 ^ S j / INR (S j) - (-1) ^ S j / INR (S j))%R).
  { apply (RInt_deriv (fun y => (y ^ S j / INR (S j))%R)).
    - intros x. auto_derive; trivial. replace (Init.Nat.pred (S j)) with j by reflexivity. field. auto.
    - intros x. apply (ex_derive_continuous (V := R_NormedModule)). auto_derive. trivial. }
  assert (B : is_RInt (fun x => (cos x ^ j * sin x)%R) 0 PI (- (cos PI ^ S j) / INR (S j) - - (cos 0 ^ S j) / INR (S j))%R).
  { apply (RInt_deriv (fun y => (- (cos y ^ S j) / INR (S j))%R)).
    - intros x. auto_derive; trivial. replace (Init.Nat.pred (S j)) with j by reflexivity. field. auto.
    - intros x. apply (ex_derive_continuous (V := R_NormedModule)). auto_derive. trivial. }
  rewrite (is_RInt_unique _ _ _ _ A), (is_RInt_unique _ _ _ _ B), cos_PI, cos_0.
  match goal with |- ?a = ?b => change (@eq R a b) end. field. auto.
Qed.

Definition cheb (j : nat) (k : Z) (x : R) : R := (cos x ^ j * cos (IZR k * x) * sin x)%R.
Lemma cheb_ex j k : ex_RInt (cheb j k) 0 PI.
Proof.
  apply (ex_RInt_continuous (V := R_CompleteNormedModule)). intros x _. apply (ex_derive_continuous (V := R_NormedModule)).
  unfold cheb. auto_derive. trivial.
Qed.
Lemma cos_step k x : cos (IZR (k + 1) * x) = (2 * cos x * cos (IZR k * x) - cos (IZR (k - 1) * x))%R.
Proof.
  replace (IZR (k + 1) * x)%R with (IZR k * x + x)%R by (rewrite plus_IZR; ring).
  replace (IZR (k - 1) * x)%R with (IZR k * x - x)%R by (rewrite minus_IZR; ring).
  rewrite cos_plus, cos_minus. ring.
Qed.
Lemma cheb_step j k : RInt (cheb j (k + 1)) 0 PI = (2 * RInt (cheb (S j) k) 0 PI - RInt (cheb j (k - 1)) 0 PI)%R.
Proof.
  transitivity (minus (scal (V := R_NormedModule) 2%R (RInt (cheb (S j) k) 0 PI)) (RInt (cheb j (k - 1)) 0 PI)); [|reflexivity].
  apply is_RInt_unique. eapply is_RInt_ext.
  2:{ apply (is_RInt_minus (V := R_NormedModule)).
      - apply (is_RInt_scal (V := R_NormedModule)). apply (RInt_correct (V := R_CompleteNormedModule)). apply cheb_ex.
      - apply (RInt_correct (V := R_CompleteNormedModule)). apply cheb_ex. }
  intros x _. unfold cheb. rewrite cos_step. unfold minus, plus, opp, scal. cbn. unfold mult. cbn. ring.
Qed.

Lemma gauss_cheb K n w th k : gauss_exact K n w (fun t => cos (th t)) -> 0 <= k ->
  forall j : nat, Z.of_nat j + k < K ->
    rsum (zrange 0 n) (fun t => (w t * (cos (th t) ^ j * cos (IZR k * th t)))%R) = RInt (cheb j k) 0 PI.
Proof.
  intros HG Hk.
  assert (P : forall k, 0 <= k -> forall j : nat,
    (Z.of_nat j + k < K -> rsum (zrange 0 n) (fun t => (w t * (cos (th t) ^ j * cos (IZR k * th t)))%R) = RInt (cheb j k) 0 PI) /\
    (Z.of_nat j + (k + 1) < K -> rsum (zrange 0 n) (fun t => (w t * (cos (th t) ^ j * cos (IZR (k + 1) * th t)))%R) = RInt (cheb j (k + 1)) 0 PI)).
  { z_ind.
    - intros j. assert (Z0 : forall j : nat, Z.of_nat j < K ->
        rsum (zrange 0 n) (fun t => (w t * (cos (th t) ^ j * cos (IZR 0 * th t)))%R) = RInt (cheb j 0) 0 PI).
      { intros i Hi. transitivity (RInt (fun x => (cos x ^ i * sin x)%R) 0 PI).
        - rewrite <- RInt_pow_sym, <- HG by auto. apply rr_ext. intros. rewrite Rmult_0_l, cos_0. ring.
        - apply RInt_extR. intros x. unfold cheb. rewrite Rmult_0_l, cos_0. ring. }
      split; [intros; apply Z0; lia|]. intros Hj.
      transitivity (rsum (zrange 0 n) (fun t => (w t * (cos (th t) ^ S j * cos (IZR 0 * th t)))%R)).
      + apply rr_ext. intros. rewrite Rmult_0_l, cos_0. cbn [pow Z.add]. rewrite Rmult_1_l. ring.
      + rewrite Z0 by lia. apply RInt_extR. intros x. unfold cheb. rewrite Rmult_0_l, cos_0. cbn [pow Z.add]. rewrite Rmult_1_l. ring.
    - intros k0 Hk0 IH j. rewrite <- !Z.add_1_r. split; [apply IH|]. intros Hj.
      rewrite cheb_step. replace (k0 + 1 - 1) with k0 by lia.
      rewrite <- (proj1 (IH j)) by lia. rewrite <- (proj2 (IH (S j))) by lia.
      rewrite <- rs_scal_l, <- rs_minus. apply rr_ext. intros t _. rewrite (cos_step (k0 + 1)).
      replace (k0 + 1 - 1) with k0 by lia. cbn [pow]. ring. }
  intros j. apply P. auto.
Qed.

Lemma gauss_cos K n w th k : gauss_exact K n w (fun t => cos (th t)) -> 0 <= k < K ->
  rsum (zrange 0 n) (fun t => (w t * cos (IZR k * th t))%R) = Re (mw_weights k).
Proof.
  intros HG Hk. rewrite <- (is_RInt_unique _ _ _ _ (mw_cos k)).
  transitivity (RInt (cheb 0 k) 0 PI).
  - rewrite <- (gauss_cheb K n w th k) by (auto; lia). apply rr_ext. intros. cbn [pow]. ring.
  - apply RInt_extR. intros. unfold cheb. cbn [pow]. ring.
Qed.

(** ** The weights returned by the library *)
Lemma transform_mwss_ok gl L spin nside : 1 <= L -> exists w, quad_weights_transform gl L "mwss" spin nside = Ok w /\
  vlen w = 2 * L + 1 /\ forall k, - (2 * L) < k < 2 * L ->
  rsum (zrange 0 (2 * L + 1)) (fun t => (IZR (2 * L) * vat w t * cos (IZR k * mwss_theta (2 * L) t))%R) = (2 * PI * Re (mw_weights k))%R.
Proof.
  intros HL. destruct (mwss_weights_ok (2 * L) 0 ltac:(lia)) as (q & E & El & Hq). unfold quad_weights_transform.
  change (streq (lower "mwss") "mwss") with true. cbv iota. rewrite E. cbn [bind]. eexists. split; [reflexivity|].
  split; [exact El|]. intros k Hk. rewrite <- (mwss_cos (2 * L) 0 q k) by (auto; lia).
  rewrite <- rs_scal_l. apply rr_ext. intros t _. cbn [vmap vat]. field. apply (IZR_neq _ 0). lia.
Qed.

Lemma dh_weights_ok gl L : 1 <= L -> exists w, quad_weights_dh gl L = Ok w /\
  vlen w = 2 * L /\ forall k, - (2 * L) < k < 2 * L ->
  rsum (zrange 0 (2 * L)) (fun t => (IZR (2 * L - 1) * vat w t * cos (IZR k * dh_theta L t))%R) = (2 * PI * Re (mw_weights k))%R.
Proof.
  intros HL. unfold quad_weights_dh.
  destruct (thetas_ok gl "dh" DH L 0) as (v & E & El & Hv); try (reflexivity || discriminate || (right; lia)).
  assert (E' : thetas gl (Some L) "dh" None = Ok v) by (rewrite <- E; reflexivity).
  rewrite E'. cbn [bind]. eexists. split; [reflexivity|]. split; [exact El|]. intros k Hk.
  rewrite <- (dh_cos L k) by auto. rewrite <- rs_scal_l. apply rr_ext. intros t Ht. cbn [vmap vat].
  rewrite Hv by (cbn [rings]; lia). cbn [theta_of]. field. apply (IZR_neq _ 0). lia.
Qed.

Lemma gl_weights_ok gl L : 1 <= L -> exists w, quad_weights_gl gl L = Ok w /\ vlen w = vlen (gl_weights gl L) /\
  forall n th, gauss_exact (2 * L) n (vat (gl_weights gl L)) (fun t => cos (th t)) ->
  forall k, - (2 * L) < k < 2 * L ->
  rsum (zrange 0 n) (fun t => (IZR (2 * L - 1) * vat w t * cos (IZR k * th t))%R) = (2 * PI * Re (mw_weights k))%R.
Proof.
  intros HL. eexists. split; [reflexivity|]. split; [reflexivity|]. intros n th HG k Hk.
  transitivity (2 * PI * Re (mw_weights (Z.abs k)))%R.
  - rewrite <- (gauss_cos (2 * L) n _ th (Z.abs k) HG) by lia. rewrite <- rs_scal_l. apply rr_ext. intros t Ht. cbn [vmap vat].
    replace (cos (IZR (Z.abs k) * th t)) with (cos (IZR k * th t)); [field; apply (IZR_neq _ 0); lia|].
    destruct (Z.abs_spec k) as [[_ ->]|[_ ->]]; [reflexivity|]. rewrite opp_IZR, <- cos_neg. f_equal. ring.
  - destruct (Z.abs_spec k) as [[_ ->]|[_ ->]]; [reflexivity|]. rewrite mw_opp. reflexivity.
Qed.

Lemma gl_exact_thetas gl name L nside : denotes name GL -> gauss_legendre L (gl_nodes gl L) (gl_weights gl L) ->
  exists v, thetas gl (Some L) name nside = Ok v /\ vlen v = L /\ (forall t, 0 <= t < L -> (0 < vat v t < PI)%R) /\
    gauss_exact (2 * L) L (vat (gl_weights gl L)) (fun t => cos (vat v t)).
Proof.
  intros Hd (Lx & Lw & Hb & Hi & HG). destruct (gl_thetas gl name L nside Hd) as (v & E & El & Hv & _); try (now rewrite Lx).
  exists v. rewrite Lx in El. split; [exact E|]. split; [exact El|]. rewrite El in Hv. split; [intros; now apply Hv|].
  intros j Hj. rewrite <- HG by auto. apply rr_ext. intros t Ht. do 2 f_equal. now apply Hv.
Qed.
