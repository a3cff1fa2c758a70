(** The JAX quadrature weights. *)
From Coq Require Import Reals Lra Lia ZifyBool FunctionalExtensionality.
From Coquelicot Require Import Coquelicot.
From Verif Require Import Lib.Py Lib.PyFacts Lib.Vec Lib.VecFacts Lib.Sums Lib.Cplx Lib.Arr
  Model.Samples Model.Grids Model.FFT Model.Quadrature Model.QuadratureJax Model.GaussLegendre Spec.SamplesSpec Spec.QuadSpec Spec.SphereSpec Spec.GridSpec
  Proofs.QuadProofs Proofs.NewtonConv Properties.QuadProps.
Open Scope string_scope.
Open Scope Z_scope.

Lemma vadd_at_slice q s e w : vadd_at q s e w = vadd_slice q s e (sgn 0) w.
Proof.
  unfold vadd_at, vadd_slice. destruct (negb _); [reflexivity|]. f_equal. f_equal. apply functional_extensionality. intros i.
  change (sgn 0) with 1%R. ring.
Qed.
Lemma mwss_same L : quad_weights_mwss_theta_only_jax L = quad_weights_mwss_theta_only L 0.
Proof. unfold quad_weights_mwss_theta_only_jax, quad_weights_mwss_theta_only. f_equal. apply functional_extensionality. intros w. apply vadd_at_slice. Qed.
Lemma mw_same L : quad_weights_mw_theta_only_jax L = quad_weights_mw_theta_only L 0.
Proof. unfold quad_weights_mw_theta_only_jax, quad_weights_mw_theta_only. f_equal. apply functional_extensionality. intros w. apply vadd_at_slice. Qed.
Lemma fold_left_rsum (f : Z -> R) l a : fold_left (fun w k => (w + f k)%R) l a = (a + rsum l f)%R.
Proof. revert a. induction l as [|x l IH]; intros a; cbn; [ring|]. rewrite IH. unfold suml. ring. Qed.
Lemma dh_same gl L : quad_weights_dh_jax gl L = quad_weights_dh gl L.
Proof.
  unfold quad_weights_dh_jax, quad_weights_dh. f_equal. apply functional_extensionality. intros th. cbv zeta. f_equal.
  unfold vmap. cbn [vlen vat]. f_equal. apply functional_extensionality. intros i.
  unfold quad_weight_dh_theta_only_jax, quad_weight_dh_theta_only. rewrite fold_left_rsum. rewrite Rplus_0_l. reflexivity.
Qed.
Lemma hp_same nside : quad_weights_hp_jax nside = quad_weights_hp nside.
Proof.
  unfold quad_weights_hp_jax, quad_weights_hp. destruct (need nside) as [n|]; [|reflexivity]. cbn [bind].
  destruct (ntheta None "healpix" nside) as [r|]; [|reflexivity]. cbn [bind]. f_equal. unfold vmap, vconst. cbn [vlen vat].
  f_equal. apply functional_extensionality. intros i. unfold Rdiv. ring.
Qed.
Lemma weights_same gl turns L name nside : ~ denotes name GL -> quad_weights_jax gl turns L name nside = quad_weights gl L name 0 nside.
Proof.
  unfold denotes. cbn [scheme_name]. intros H. unfold quad_weights_jax, quad_weights, quad_weights_mw_jax, quad_weights_mw, quad_weights_mwss_jax, quad_weights_mwss.
  rewrite mw_same, mwss_same, dh_same, hp_same. unfold streq. destruct (String.eqb_spec (lower name) "gl"); [contradiction|reflexivity].
Qed.
Lemma transform_same gl turns L name nside spin : ~ denotes name GL ->
  quad_weights_transform_jax gl turns L name nside = quad_weights_transform gl L name spin nside.
Proof.
  unfold denotes. cbn [scheme_name]. intros H. unfold quad_weights_transform_jax, quad_weights_transform.
  rewrite mwss_same, dh_same, hp_same. unfold streq. destruct (String.eqb_spec (lower name) "gl"); [contradiction|reflexivity].
Qed.

Lemma rule_close n m (w q : vec R) th g e B : (0 <= e)%R -> 0 <= m ->
  (forall t, 0 <= t < n -> (Rabs (vat q t - vat w t) <= e * vat w t)%R) -> (forall t, 0 <= t < n -> (Rabs (g (th t)) <= B)%R) ->
  (Rabs (ring_rule n m q th g - ring_rule n m w th g) <= e * B * rsum (zrange 0 n) (fun t => (IZR m * vat w t)%R))%R.
Proof.
  intros He Hm Hq Hg. unfold ring_rule. rewrite <- (Rmult_comm (rsum _ _)), <- rs_scal_r.
  assert (M : (0 <= IZR m)%R) by (apply IZR_le; lia).
  assert (G : forall t, In t (zrange 0 n) -> 0 <= t < n) by (intros t; rewrite in_zrange; auto).
  revert G. generalize (zrange 0 n). induction l as [|t l IH]; intros G.
  { cbn. rewrite Rminus_0_r, Rabs_R0. lra. }
  assert (IH' := IH (fun t H => G t (or_intror H))). specialize (G t (or_introl eq_refl)). specialize (Hq t G). specialize (Hg t G).
  unfold suml in *. cbn [map fold_right].
  match goal with |- (Rabs ((?a + ?A) - (?b + ?B')) <= ?c + ?C)%R => replace ((a + A) - (b + B'))%R with ((a - b) + (A - B'))%R by ring;
    eapply Rle_trans; [apply Rabs_triang|]; apply Rplus_le_compat; [|exact IH'] end.
  replace (IZR m * vat q t * g (th t) - IZR m * vat w t * g (th t))%R with (IZR m * ((vat q t - vat w t) * g (th t)))%R by ring.
  rewrite Rabs_mult, Rabs_mult, (Rabs_pos_eq (IZR m)) by auto.
  replace (IZR m * vat w t * (e * B))%R with (IZR m * (e * vat w t * B))%R by ring.
  apply Rmult_le_compat_l; [exact M|]. apply Rmult_le_compat; auto using Rabs_pos.
Qed.
Lemma gl_close gl turns name L nside : denotes name GL -> 1 <= L -> gauss_legendre L (gl_nodes gl L) (gl_weights gl L) -> (50 <= turns)%nat ->
  exists q v, quad_weights_jax gl turns L name nside = Ok q /\ quad_weights_transform_jax gl turns L name nside = Ok q /\ vlen q = L /\
    thetas gl (Some L) name nside = Ok v /\ vlen v = L /\
    forall a B, let g := cos_poly (2 * L) a in (forall t, 0 <= t < L -> (Rabs (g (vat v t)) <= B)%R) ->
      (Rabs (ring_rule L (2 * L - 1) q (vat v) g - sphere_integral g) <= IZR (2 * L + 1) ^ 2 / 10 ^ 14 * B * (4 * PI))%R.
Proof.
  intros Hd HL HG HT. destruct (newton_accurate _ _ _ turns HG HL HT) as (q & Eq & Lq & Hq).
  destruct (C19_gl gl name L 0 nside Hd HL HG) as (w & v & E1 & E2 & Lw & Ev & Lv & Hw).
  exists q, v. assert (Hd' := Hd). unfold denotes in Hd'. cbn [scheme_name] in Hd'.
  split. { unfold quad_weights_jax. rewrite Hd'. exact Eq. }
  split. { unfold quad_weights_transform_jax. rewrite Hd'. exact Eq. }
  split; [exact Lq|]. split; [exact Ev|]. split; [exact Lv|]. intros a B g HB. unfold g. rewrite <- (Hw a). fold g.
  destruct (C19_total_weight gl name GL L nside Hd ltac:(discriminate) HL (fun _ => HG)) as (w' & E3 & T).
  rewrite E2 in E3. injection E3 as <-. cbn [rings per_ring] in T. rewrite <- T.
  assert (Ew : w = vmap (fun w => (w * 2 * PI / IZR (2 * L - 1))%R) (gl_weights gl L)).
  { unfold quad_weights in E2. rewrite Hd' in E2. cbn in E2. injection E2 as <-. reflexivity. }
  apply rule_close; auto; try lia.
  - assert (0 < 10 ^ 14)%R by (apply pow_lt; lra). apply Rmult_le_pos; [apply pow2_ge_0|]. left. now apply Rinv_0_lt_compat.
  - intros t Ht. specialize (Hq t Ht). rewrite Ew. cbn [vmap vat]. 
    replace (vat (gl_weights gl L) t * 2 * PI / IZR (2 * L - 1))%R with (vat (gl_weights gl L) t * (2 * PI / IZR (2 * L - 1)))%R by (unfold Rdiv; ring).
    exact Hq.
Qed.
