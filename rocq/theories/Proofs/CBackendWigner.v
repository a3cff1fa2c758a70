(** The Wigner transforms with method "jax_ssht". *)
From Coq Require Import Reals ZifyBool Lra FunctionalExtensionality.
From Coquelicot Require Import Complex.
From Verif Require Import Lib.Py Lib.PyFacts Lib.Vec Lib.VecFacts Lib.Sums Lib.Cplx Lib.Arr Lib.ArrFacts Lib.MatFacts
  Model.Index Model.Samples Model.Grids Model.Turok Model.Spherical Model.PriceMcEwen Model.OTF Model.OTFSpherical Model.Wigner Model.OTFWigner Model.Refine Model.CBackend
  Spec.SamplesSpec Spec.WignerSpec Spec.SphereSpec Spec.GridSpec Spec.HealpixFFTSpec Spec.SphericalSpec Spec.QuadSpec Spec.SO3Spec Spec.OTFWignerSpec Spec.CBackendSpec
  Proofs.SamplesProofs Proofs.GridProofs Proofs.PixelProofs Proofs.TurokProofs Proofs.SphInverse Proofs.SphRound Proofs.SphForwardTop Proofs.OTFSphInverse Proofs.OTFSphForward Proofs.SphereTheory Proofs.SphTop Proofs.SphForward Proofs.SphFacts
  Proofs.WignerInverse Proofs.WignerForward Proofs.WignerRound Proofs.WignerReal Proofs.OTFWignerLoop Proofs.OTFWignerInverse
  Proofs.CBackendSsht Proofs.CBackendWeights Proofs.CBackendLib Proofs.CBackendTop.
From Coq Require Import List.
Import ListNotations.
Open Scope string_scope.
Open Scope Z_scope.

(** ** Adding to planes that are zero sets them *)
Lemma add_loop N n1 sh (G : Z -> ndarray C) F (a : ndarray C) : 1 <= N -> - N + 1 <= n1 <= N -> shape a = 2 * N - 1 :: sh ->
  (forall k ix, N - 1 + n1 <= k -> get a (k :: ix) = RtoC 0) ->
  (forall n a, n1 <= n < N -> F a n = plane_add a (N - 1 + n) (G n)) -> (forall n, n1 <= n < N -> shape (G n) = sh) ->
  foldM F (zrange n1 N) a = foldM (fun a n => plane_set a (N - 1 + n) (G n)) (zrange n1 N) a.
Proof.
  intros HN H1 Sa Za HF SG. remember (Z.to_nat (N - n1)) as k eqn:Ek. revert n1 a H1 Sa Za HF SG Ek. induction k as [|k IH]; intros n1 a H1 Sa Za HF SG Ek.
  - replace N with n1 at 1 3 by lia. now rewrite !zrange_nil by lia.
  - rewrite !(zrange_cons n1 N) by lia. cbn [foldM]. rewrite HF by lia.
    assert (E : plane_add a (N - 1 + n1) (G n1) = plane_set a (N - 1 + n1) (G n1)).
    { unfold plane_add. rewrite (plane_ok a (2 * N - 1) sh) by (auto; lia). cbn [bind]. unfold aadd. cbn [shape]. rewrite SG by lia. rewrite SphTop.shape_is_refl. cbn [bind]. f_equal.
      pose proof (SG n1 ltac:(lia)) as S1. destruct (G n1) as [sg gg]. cbn [shape get] in *. subst sg. f_equal. apply functional_extensionality. intros ix. rewrite Za by lia. ring. }
    rewrite E. destruct (plane_set_ok a (G n1) (2 * N - 1) sh (N - 1 + n1)) as (a' & -> & S' & G'); auto; [apply SG; lia|lia|].
    apply IH; auto; try lia.
    + intros j ix Hj. rewrite G'. destruct (Z.eqb_spec j (N - 1 + n1)); [lia|]. apply Za. lia.
    + intros n b Hn. apply HF. lia.
    + intros n Hn. apply SG. lia.
Qed.

Lemma scale_low Lo l : 0 <= l -> (so3_scale l * low_inverse Lo l = if Lo <=? l then so3_scale l else 1)%R.
Proof.
  intros Hl. unfold low_inverse. destruct (Z.leb_spec Lo l); destruct (Z.ltb_spec l Lo); try lia; [ring|].
  pose proof (scale_norm l Hl) as E. unfold norm3 in E. rewrite <- E. ring.
Qed.
Lemma norm_low Lo l : 0 <= l -> (2 * PI * so3_scale l * (if (Lo <=? l)%Z then norm3 l else 1) = low_forward Lo l)%R.
Proof.
  intros Hl. unfold low_forward. destruct (Z.leb_spec Lo l); destruct (Z.ltb_spec l Lo); try lia; [now apply scale_norm|].
  assert (P := PI_RGT_0). assert (Q : (0 < IZR (2 * l + 1))%R) by (apply IZR_lt; lia).
  assert (E : (norm3 l * sqrt (IZR (2 * l + 1) / (4 * PI)) = 1)%R).
  { unfold norm3. rewrite <- sqrt_mult_alt by (apply Rlt_le, Rdiv_lt_0_compat; lra). rewrite <- sqrt_1. f_equal. field. lra. }
  pose proof (scale_norm l Hl) as E1. rewrite Rmult_1_r.
  transitivity (2 * PI * so3_scale l * (norm3 l * sqrt (IZR (2 * l + 1) / (4 * PI))))%R; [rewrite E; ring|].
  rewrite <- Rmult_assoc, E1. ring.
Qed.

Section Top.
  Variables (gl : gl_rule) (s : scheme) (L N : Z) (p : pyssht) (w : Z -> Z -> R).
  Hypothesis (Hs : s <> HEALPIX) (HN : 1 <= N <= L) (HG : s = GL -> gauss_legendre L (gl_nodes gl L) (gl_weights gl L))
    (K : forall n, - N < n < N -> ssht_contract (vat (gl_nodes gl L)) (w n) s L (- n) p).
  Notation nodes := (vat (gl_nodes gl L)).
  Let S : setting (scheme_name s) s L 0 None.
  Proof. split; [apply denotes_name|]. split; [lia|]. intros; congruence. Qed.
  Let Ix : ssht_index (scheme_name s) = Ok (scheme_number s).
  Proof. apply (checks_ssht (scheme_name s) s); auto. apply denotes_name. Qed.
  Let th := th_of gl s L 0.
  Let Th t : 0 <= t < rings s L 0 -> colatitude nodes s L 0 t (th t).
  Proof. intros. now apply th_of_is. Qed.
  Let Tu t x : 0 <= t < rings s L 0 -> colatitude nodes s L 0 t x -> x = th t.
  Proof. intros. apply (colat_unique gl s L 0 t x); auto. congruence. Qed.

  (** *** The inverse transform *)
  Lemma finish reality c fb : shape fb = 2 * N - 1 :: map_shape s L 0 ->
    (reality = true -> forall l, 0 <= l < L -> is_real (c 0 l 0)) ->
    (forall n t q, n_start N reality <= n < N -> 0 <= t < rings s L 0 -> 0 <= q < ring_size s L 0 t ->
       get fb (N - 1 + n :: sample_index s 0 t q) = part3 L n (used3 reality 0 c n) (longitude s L 0 t q) (th t)) ->
    so3_holds nodes s L N 0 (gamma_synthesis fb N reality) (so3_synth L N (used3 reality 0 c)).
  Proof.
    intros Sb Hr Gb. destruct (gamma_synthesis_ok s L N 0 reality ltac:(lia) fb (fun n t q => part3 L n (used3 reality 0 c n) (longitude s L 0 t q) (th t)) Sb Gb) as (S1 & G1).
    { intros ER n t q Hk _ _. apply part3_conj. intros l m Hl Hm. unfold used3. rewrite ER. destruct (l <? 0); [rewrite Cconj_R; ring|].
      unfold real_extension3. destruct (Z.eqb_spec n 0) as [->|Q].
      - change (-0)%Z with 0. change (0 <? 0) with false. cbn [orb Z.eqb andb]. rewrite !Z.add_0_r.
        destruct (Z.ltb_spec m 0); destruct (Z.ltb_spec (- m) 0); try lia.
        + rewrite Cconj_mult, Cconj_R, Cconj_conj, Cmult_assoc, <- RtoC_mult, sgn_sq. ring.
        + rewrite Z.opp_involutive, sgn_opp. reflexivity.
        + assert (m = 0) by lia. subst m. change (- 0)%Z with 0. change (sgn 0) with 1%R. rewrite (real_conj _ (Hr ER l ltac:(lia))). ring.
      - replace (- n <? 0) with true by lia. replace (n <? 0) with false by lia. cbn [orb]. replace (n =? 0) with false by lia. cbn [andb].
        rewrite !Z.opp_involutive. f_equal. replace (- m + - n) with (- (m + n)) by lia. now rewrite sgn_opp. }
    split; [exact S1|]. intros g t q x Hg Ht Hp Hx. rewrite (Tu t x) by auto. rewrite G1 by auto. rewrite so3_synth_parts. apply cr_ext. intros n Hk. now rewrite gamma_root by lia.
  Qed.

  Theorem inverse_synthesis Lo flmn reality b : 0 <= Lo <= L -> shape flmn = [2 * N - 1; L; 2 * L - 1] ->
    (reality = true -> hermitian_plane L N flmn) ->
    exists f, inverse_jax_ssht (Some p) flmn L N Lo (scheme_name s) reality b = Ok f /\
      so3_holds nodes s L N 0 f (so3_synth L N (used3 reality 0 (fun n l m => RtoC (low_inverse Lo l) * stored3 L N flmn n l m)%C)).
  Proof.
    intros HLo Hf Hh. set (c := fun n l m => (RtoC (low_inverse Lo l) * stored3 L N flmn n l m)%C).
    set (fl := mkArr [2 * N - 1; L; 2 * L - 1] (fun ix => (RtoC (low_inverse Lo (nth 1 ix 0%Z)) * get flmn ix)%C)).
    assert (Hfl : reality = true -> hermitian_plane L N fl).
    { intros ER el m H1 H2. pose proof (Hh ER el m H1 H2) as Q. unfold stored3 in *. cbn [fl get nth]. rewrite Q, Cconj_mult, Cconj_R. ring. }
    assert (Hr : reality = true -> forall l, 0 <= l < L -> is_real (stored3 L N fl 0 l 0)).
    { intros ER l Hl. pose proof (Hfl ER l 0 Hl ltac:(lia)) as Q. change (- 0) with 0 in Q. change (sgn 0) with 1%R in Q.
      destruct (stored3 L N fl 0 l 0) as [x y]. unfold is_real, Im, Cconj, RtoC, Cmult in *. cbn in *. injection Q. lra. }
    destruct (scale_degrees_ok flmn L Lo inv_scale (2 * N - 1) HLo Hf) as (a & Ea & Sa & Ga).
    assert (n0 : - N + 1 <= n_start N reality <= N) by (unfold n_start; destruct reality; lia).
    unfold inverse_jax_ssht, inverse_norm. rewrite (so3_shape s L N 0 None S). cbn [bind]. rewrite Ea. cbn [bind]. unfold flmn_to_fban. rewrite Ix. cbn [bind].
    set (pl := fun n => mkArr [L; 2 * L - 1] (fun ix => get a (N - 1 + n :: ix))).
    set (g := fun n => match ssht_inverse (Some p) (pl n) L (- n) false (scheme_number s) b with Ok x => x | Err _ => zeros (RtoC 0) (map_shape s L 0) end).
    assert (Hg : forall n, n_start N reality <= n < N -> ssht_inverse (Some p) (pl n) L (- n) false (scheme_number s) b = Ok (g n) /\ shape (g n) = map_shape s L 0 /\
      forall t q, 0 <= t < rings s L 0 -> 0 <= q < ring_size s L 0 t ->
        (RtoC (sgn n) * get (g n) (sample_index s 0 t q))%C = part3 L n (used3 reality 0 c n) (longitude s L 0 t q) (th t)).
    { intros n Hn. destruct (ssht_inverse_complex nodes (w n) s L (- n) p Hs ltac:(lia) (K n ltac:(lia)) (pl n) b eq_refl) as (f & E & Sf & Hff).
      unfold g. rewrite E. split; [reflexivity|]. split; [exact Sf|]. intros t q Ht Hq. rewrite (Hff t q (th t)) by auto.
      rewrite <- (coeffs_n fl L N reality 0 Hr n false
        (fun l m => if 0 <=? l then (RtoC (so3_scale l) * stored3 L N fl n l m)%C else stored3 L N fl n l m) Hn); auto; try discriminate.
      f_equal. apply SphFacts.synth_ext. intros l m Hl Hm. unfold used_coefficients, above. cbn [andb].
      replace (0 <=? l) with true by lia. replace (l <? 0) with false by lia. unfold stored, stored3. cbn [pl fl get nth]. rewrite Ga. replace (n + N - 1) with (N - 1 + n) by lia.
      rewrite Cmult_assoc, <- RtoC_mult, scale_low by lia. destruct (Lo <=? l); [apply Cmult_comm|ring]. }
    match goal with |- context [foldM ?F _ ?z0] => rewrite (add_loop N (n_start N reality) (map_shape s L 0) (fun n => amap (fun z => (RtoC (m1 (Z.abs n)) * z)%C) (g n)) F z0) end;
      [|lia|exact n0|reflexivity|reflexivity| |].
    2:{ intros n a' Hn. rewrite (plane_ok a (2 * N - 1) [L; 2 * L - 1]) by (auto; lia). cbn [bind]. destruct (Hg n Hn) as (E & _). unfold pl in E at 1. rewrite E. reflexivity. }
    2:{ intros n Hn. apply Hg. exact Hn. }
    set (V := fun n t q => part3 L n (used3 reality 0 c n) (longitude s L 0 t q) (th t)).
    set (Q := fun n g => forall t q, 0 <= t < rings s L 0 -> 0 <= q < ring_size s L 0 t -> get g (sample_index s 0 t q) = V n t q).
    match goal with |- context [foldM ?F _ ?z] => destruct (plane_loop N (n_start N reality) (map_shape s L 0) Q F z n0 ltac:(lia) eq_refl) as (fb & -> & Sb & Gb & _) end.
    - intros n Hn. destruct (Hg n Hn) as (_ & Sg & Vg). eexists. split; [intros; reflexivity|]. split; [exact Sg|]. intros t q Ht Hq. cbn [amap get].
      change (m1 (Z.abs n)) with (sgn (Z.abs n)). rewrite sgn_abs. apply Vg; auto.
    - apply (plane_ix Q s L 0 V). intros; unfold Q; tauto.
    - cbn [bind]. eexists. split; [reflexivity|]. apply finish; auto. intros n t q Hk Ht Hq. exact (Gb n Hk t q Ht Hq).
  Qed.

  (** *** The forward transform *)
  Theorem forward_recovery Lo f c reality b : 0 <= Lo <= L -> (reality = true -> hermitian3 L N c) -> so3_holds nodes s L N 0 f (so3_synth L N c) ->
    exists flmn, forward_jax_ssht (Some p) f L N Lo (scheme_name s) reality b = Ok flmn /\
      holds_coefficients3 L N flmn (fun n l m => RtoC (low_forward Lo l) * restricted3 0 c n l m)%C.
  Proof.
    intros HLo Hr (Sf & Gf).
    assert (n0 : - N + 1 <= n_start N reality <= N) by (unfold n_start; destruct reality; lia).
    assert (RE : forall g t q, 0 <= g < 2 * N - 1 -> 0 <= t < rings s L 0 -> 0 <= q < ring_size s L 0 t ->
      get (seen reality f) (g :: sample_index s 0 t q) = get f (g :: sample_index s 0 t q)).
    { intros g t q Hg Ht Hq. unfold seen. destruct reality; [|reflexivity]. cbn [amap get]. rewrite (Gf g t q (th t)) by auto. apply real_Re. now apply so3_synth_real, Hr. }
    assert (AT : forall t q, 0 <= t < rings s L 0 -> 0 <= q < ring_size s L 0 t -> forall x, colatitude nodes s L 0 t x ->
      forall g, 0 <= g < 2 * N - 1 -> get (seen reality f) (g :: sample_index s 0 t q)
        = csum (zrange (- (N - 1)) N) (fun n => part3 L n (c n) (longitude s L 0 t q) x * root (2 * N - 1) (n * g))%C).
    { intros t q Ht Hp x Hx g Hgg. rewrite RE by auto. rewrite (Gf g t q x) by auto. rewrite so3_synth_parts. apply cr_ext. intros n Hn. rewrite gamma_root by lia. reflexivity. }
    set (X := fun n el m => (RtoC (sgn n) * restricted 0 (- n) (fun l m => RtoC (2 * PI * sgn n) * (RtoC (so3_scale l) * c n l m)) el m)%C).
    unfold forward_jax_ssht, fban_to_flmn. rewrite Ix. cbn [bind].
    set (A := gamma_analysis f N reality).
    set (g := fun n => match (let* x := plane A (n - n_start N reality) in ssht_forward (Some p) x L (- n) false (scheme_number s) b) with Ok x => x | Err _ => zeros (RtoC 0) [L; 2 * L - 1] end).
    assert (Hg : forall n, n_start N reality <= n < N ->
      (let* x := plane A (n - n_start N reality) in ssht_forward (Some p) x L (- n) false (scheme_number s) b) = Ok (g n) /\
      holds_coefficients L (g n) (fun el m => RtoC (sgn n) * X n el m)%C).
    { intros n Hn. destruct (gamma_analysis_plane s L N 0 reality f n Sf Hn) as (x & Ex & Sx & Gx).
      destruct (ssht_forward_complex nodes (w n) s L (- n) p Hs ltac:(lia) (K n ltac:(lia)) x (fun l m => RtoC (2 * PI * sgn n) * (RtoC (so3_scale l) * c n l m))%C b) as (q & Eq & Sq & Gq).
      { split; [exact Sx|]. intros t q y Ht Hq Hy. rewrite Gx by (exists t, q; auto).
        rewrite (comp_fourier N (seen reality f) n _ (fun k => part3 L k (c k) (longitude s L 0 t q) y)) by (auto; lia).
        rewrite <- component, Cmult_assoc, <- RtoC_mult. unfold synth. rewrite <- cs_scal_l. apply cr_ext. intros l Hl. rewrite <- cs_scal_l. apply cr_ext. intros m Hm. ring. }
      unfold g, A. rewrite Ex. cbn [bind]. rewrite Eq. split; [reflexivity|]. split; [exact Sq|]. intros el m Hel Hm. rewrite Gq by auto. unfold X.
      rewrite Cmult_assoc, <- RtoC_mult, sgn_sq. ring. }
    match goal with |- context [foldM ?F _ ?z0] => rewrite (add_loop N (n_start N reality) [L; 2 * L - 1] (fun n => amap (fun z => (RtoC (m1 (Z.abs n)) * z)%C) (g n)) F z0) end;
      [|lia|exact n0|reflexivity|reflexivity| |].
    2:{ intros n a' Hn. destruct (Hg n Hn) as (E & _). destruct (plane A (n - n_start N reality)) as [y|]; [|discriminate E]. cbn [bind] in *. rewrite E. reflexivity. }
    2:{ intros n Hn. apply (Hg n Hn). }
    destruct (jax_planes L N reality ltac:(lia) X g (fun a n => plane_set a (N - 1 + n) (amap (fun z => (RtoC (m1 (Z.abs n)) * z)%C) (g n))) (zeros (RtoC 0) (flmn_shape L N)))
      as (d & Ed & Sd & Gd); [reflexivity|intros n Hn; apply (Hg n Hn)|reflexivity|].
    destruct (foldM _ _ _) as [flmn|] in *; [|discriminate Ed]. cbn [bind] in *. unfold reality_and_norm. rewrite Ed. cbn [bind].
    destruct (scale_degrees_ok d L Lo fwd_scale (2 * N - 1) HLo Sd) as (e & Ee & Se & Ge). exists e. split; [exact Ee|]. split; [exact Se|].
    intros n el m H1 H2 H3. unfold stored3. rewrite Ge. fold (stored3 L N d n el m). rewrite Gd by auto.
    assert (E0 : forall z : C, (if Lo <=? el then (z * RtoC (fwd_scale el))%C else z) = (z * RtoC (if (Lo <=? el)%Z then norm3 el else 1))%C).
    { intros z. destruct (Lo <=? el); [reflexivity|]. rewrite Cmult_1_r. reflexivity. }
    rewrite E0. set (r := if Lo <=? el then norm3 el else 1%R).
    assert (XV : forall n m, - N < n < N -> (X n el m * RtoC r = RtoC (low_forward Lo el) * restricted3 0 c n el m)%C).
    { intros k q Hk. unfold X, restricted, restricted3. rewrite Z.abs_opp. destruct (_ && _); [|ring].
      transitivity (RtoC (sgn k * sgn k) * RtoC (2 * PI * so3_scale el * r) * c k el q)%C; [rewrite !RtoC_mult; ring|].
      unfold r. rewrite sgn_sq, norm_low by lia. ring. }
    unfold out3. destruct (reality && (n <? 0)) eqn:Q; [|now apply XV].
    apply andb_prop in Q. destruct Q as (Q1 & Q2).
    transitivity (RtoC (sgn (m + n)) * Cconj (X (- n)%Z el (- m)%Z * RtoC r))%C; [rewrite Cconj_mult, Cconj_R; ring|].
    rewrite XV by lia. unfold restricted3. rewrite !Z.abs_opp. rewrite Cconj_mult, Cconj_R.
    destruct ((Z.max 0 (Z.abs n) <=? el) && (Z.abs m <=? el)) eqn:B; [|rewrite Cconj_R; ring].
    rewrite (Hr Q1 n el m) by lia. rewrite Cconj_mult, Cconj_R, Cconj_conj.
    transitivity (RtoC (sgn (m + n) * sgn (m + n)) * (RtoC (low_forward Lo el) * c n el m))%C; [rewrite RtoC_mult; ring|]. rewrite sgn_sq. ring.
  Qed.

  Theorem round_trip Lo Lo' flmn reality b b' : 0 <= Lo <= L -> 0 <= Lo' <= L -> shape flmn = [2 * N - 1; L; 2 * L - 1] ->
    (reality = true -> hermitian3 L N (stored3 L N flmn)) ->
    exists f flmn', inverse_jax_ssht (Some p) flmn L N Lo (scheme_name s) reality b = Ok f /\
      forward_jax_ssht (Some p) f L N Lo' (scheme_name s) reality b' = Ok flmn' /\
      holds_coefficients3 L N flmn' (fun n l m => RtoC (low_inverse Lo l * low_forward Lo' l) * restricted3 0 (stored3 L N flmn) n l m)%C.
  Proof.
    intros HLo HLo' Hf Hr.
    destruct (inverse_synthesis Lo flmn reality b HLo Hf) as (f & E & H).
    { intros Q el m H1 H2. pose proof (Hr Q 0 el m ltac:(lia) ltac:(lia) H2) as E. change (- 0) with 0 in E. now rewrite E, Z.add_0_r. }
    set (c := fun n l m => (RtoC (low_inverse Lo l) * stored3 L N flmn n l m)%C) in H.
    assert (Hc : reality = true -> hermitian3 L N c).
    { intros Q n l m H1 H2 H3. unfold c. rewrite (Hr Q n l m H1 H2 H3), Cconj_mult, Cconj_R. ring. }
    assert (U : forall n l m, - N < n < N -> Z.abs n <= l < L -> - l <= m <= l -> used3 reality 0 c n l m = c n l m).
    { intros n l m H1 H2 H3. unfold used3. replace (l <? 0) with false by lia. destruct reality; [|reflexivity]. apply (real_ext3 L N); auto. }
    destruct (forward_recovery Lo' f (used3 reality 0 c) reality b' HLo') as (a & E' & Sa & Ga); auto.
    { intros Q n l m H1 H2 H3. rewrite !U by lia. now apply Hc. }
    exists f, a. split; [exact E|]. split; [exact E'|]. split; [exact Sa|]. intros n l m H1 H2 H3. rewrite Ga by auto.
    unfold restricted3. destruct (_ && _) eqn:B; [|ring]. rewrite U by lia. unfold c. rewrite RtoC_mult. ring.
  Qed.
  Lemma low_round Lo l : 0 <= l -> (low_inverse Lo l * low_forward Lo l = if l <? Lo then 2 * PI else 1)%R.
  Proof.
    clear. intros Hl. unfold low_inverse, low_forward. destruct (l <? Lo); [|ring]. assert (P := PI_RGT_0). assert (Q : (0 < IZR (2 * l + 1))%R) by (apply IZR_lt; lia).
    rewrite Rmult_assoc, <- sqrt_mult_alt by (apply Rlt_le, Rdiv_lt_0_compat; lra). replace (4 * PI / IZR (2 * l + 1) * (IZR (2 * l + 1) / (4 * PI)))%R with 1%R by (field; lra).
    rewrite sqrt_1. ring.
  Qed.
  (** *** The reference transforms *)
  Theorem inverse_reference flmn reality b : shape flmn = [2 * N - 1; L; 2 * L - 1] -> (reality = true -> hermitian_plane L N flmn) ->
    rings_away nodes s L 0 ->
    same_ok (inverse_jax_ssht (Some p) flmn L N 0 (scheme_name s) reality b) (wigner_inverse gl flmn L N 0 (scheme_name s) reality None).
  Proof.
    intros Hf Hh Hra. destruct (inverse_synthesis 0 flmn reality b ltac:(lia) Hf Hh) as (f & E & H).
    destruct (wigner_inverse_lemma gl s L N 0 0 None reality flmn S ltac:(lia) ltac:(lia) Hf) as (f' & E' & H'); auto.
    { intros Q. destruct (HG Q). auto. }
    { intros; congruence. }
    { intros Q l Hl. pose proof (Hh Q l 0 Hl ltac:(lia)) as HH. change (- 0) with 0 in HH. change (sgn 0) with 1%R in HH.
      destruct (stored3 L N flmn 0 l 0) as [x y]. unfold is_real, Im, Cconj, RtoC, Cmult in *. cbn in *. injection HH. lra. }
    exists f, f'. split; [exact E|]. split; [exact E'|]. eapply (so3_holds_eq gl s L N 0 None f f'); eauto.
    intros x y z. apply so3_synth_ext. intros n l m H1 H2 H3. unfold C3, used3. replace (l <? 0) with false by lia.
    assert (Q : forall n m, (RtoC (low_inverse 0 l) * stored3 L N flmn n l m)%C = stored3 L N flmn n l m).
    { intros k q. unfold low_inverse. replace (l <? 0) with false by lia. ring. }
    destruct reality; [|apply Q]. unfold real_extension3. now rewrite !Q.
  Qed.
  Theorem forward_reference f c reality b : (reality = true -> hermitian3 L N c) -> so3_holds nodes s L N 0 f (so3_synth L N c) ->
    rings_away nodes s L 0 -> forward_rings_away nodes s L 0 ->
    same_ok (forward_jax_ssht (Some p) f L N 0 (scheme_name s) reality b) (wigner_forward gl f L N 0 (scheme_name s) reality None).
  Proof.
    intros Hr H Hra Hfa. destruct (forward_recovery 0 f c reality b ltac:(lia) Hr H) as (a & E & Sa & Ga).
    destruct (wigner_recover gl s L N 0 0 None S ltac:(lia) ltac:(lia)) with (reality := reality) (f := f) (c := c) as (a' & E' & Sa' & Ga'); auto.
    { intros Q. destruct (HG Q) as (? & ? & ?). auto. }
    exists a, a'. split; [exact E|]. split; [exact E'|]. apply (holds_same3 L N a a' (restricted3 0 c)); [split; [exact Sa|]|split; auto].
    intros n l m H1 H2 H3. rewrite Ga by auto. unfold low_forward. replace (l <? 0) with false by lia. ring.
  Qed.
End Top.

(** ** One library for every spin *)
Definition library_all (gl : gl_rule) (s : scheme) (L : Z) (w : vec R) : pyssht :=
  mkSsht (fun x l spin => py_inverse (library gl s L spin w) x l spin) (fun x l spin => py_forward (library gl s L spin w) x l spin)
    (fun x l spin => py_inverse_adjoint (library gl s L spin w) x l spin) (fun x l spin => py_forward_adjoint (library gl s L spin w) x l spin).
Theorem library_all_exists gl s L : s <> HEALPIX -> 1 <= L -> (s = GL -> gauss_legendre L (gl_nodes gl L) (gl_weights gl L)) ->
  exists p, forall spin, ssht_contract (vat (gl_nodes gl L)) (library_weight (vat (gl_weights gl L)) s L) s L spin p.
Proof.
  intros Hs HL HG. destruct (lib_weights gl s L Hs HL HG) as (w & Ew & W). exists (library_all gl s L w). intros spin.
  apply (contract_weights _ (vat w)); [|exact W].
  assert (KK : ssht_contract (vat (gl_nodes gl L)) (vat w) s L spin (library gl s L spin w)) by now apply library_keeps.
  destruct KK. constructor; assumption.
Qed.

(** ** The calls *)
Lemma full_inverse3 lib th flmn L N o s reality pre Lo b : s <> HEALPIX ->
  full_wigner_inverse lib th flmn L N o (scheme_name s) "jax_ssht" reality pre Lo b = inverse_jax_ssht lib flmn L N Lo (scheme_name s) reality b.
Proof.
  intros Hs. unfold full_wigner_inverse, checks3. change (streq "jax_ssht" "jax_ssht") with true. change (known_method3 "jax_ssht") with true.
  change (str_in "jax_ssht" ["numpy"; "jax"; "torch"]) with false. rewrite Bool.andb_false_r. cbn [negb andb].
  replace (is_hp (scheme_name s)) with false by (destruct s; try congruence; reflexivity). reflexivity.
Qed.
Lemma full_forward3 lib gl th f L N o name s reality pre Lo b : denotes name s -> s <> HEALPIX ->
  full_wigner_forward lib gl th f L N o name "jax_ssht" reality pre Lo b = forward_jax_ssht lib f L N Lo (scheme_name s) reality b.
Proof.
  intros Hd Hs. unfold full_wigner_forward, checks3. change (streq "jax_ssht" "jax_ssht") with true. change (known_method3 "jax_ssht") with true.
  change (str_in "jax_ssht" ["numpy"; "jax"; "torch"]) with false. rewrite Bool.andb_false_r. cbn [negb andb].
  assert (E : is_hp name = false) by (unfold is_hp; unfold denotes in Hd; rewrite Hd; destruct s; try congruence; reflexivity). rewrite E. cbn [bind].
  unfold forward_jax_ssht, fban_to_flmn. rewrite (proj2 (checks_ssht name s Hd Hs)), (proj2 (checks_ssht (scheme_name s) s (denotes_name s) Hs)). reflexivity.
Qed.
Lemma used3_low0 reality L N flmn n l m : 0 <= l ->
  used3 reality 0 (fun n l m => RtoC (low_inverse 0 l) * stored3 L N flmn n l m)%C n l m = used3 reality 0 (stored3 L N flmn) n l m.
Proof.
  intros Hl. unfold used3, real_extension3, low_inverse. replace (l <? 0) with false by lia. rewrite !Cmult_1_l. reflexivity.
Qed.
Lemma foldM_first {A} (F : A -> Z -> result A) a n0 n e : n0 < n -> F a n0 = Err e -> foldM F (zrange n0 n) a = Err e.
Proof. intros H E. rewrite zrange_cons by lia. cbn [foldM]. now rewrite E. Qed.
Lemma missing_inverse flmn L N Lo s reality b : s <> HEALPIX -> 1 <= N -> 0 <= Lo <= L -> shape flmn = [2 * N - 1; L; 2 * L - 1] ->
  inverse_jax_ssht None flmn L N Lo (scheme_name s) reality b = Err MissingDependency.
Proof.
  intros Hs HN HLo Hf. destruct (scale_degrees_ok flmn L Lo inv_scale (2 * N - 1) HLo Hf) as (a & Ea & Sa & Ga).
  assert (Q : exists sh, so3_f_shape L N (scheme_name s) None = Ok sh) by (destruct s; try congruence; eexists; reflexivity). destruct Q as (sh & Q).
  unfold inverse_jax_ssht, inverse_norm. rewrite Q. cbn [bind]. rewrite Ea. cbn [bind].
  unfold flmn_to_fban. rewrite (proj2 (checks_ssht (scheme_name s) s (denotes_name s) Hs)). cbn [bind].
  rewrite foldM_first with (e := MissingDependency); [reflexivity|unfold n_start; destruct reality; lia|].
  rewrite (plane_ok a (2 * N - 1) [L; 2 * L - 1]) by (auto; unfold n_start; destruct reality; lia). reflexivity.
Qed.
Lemma missing_forward s f L N Lo reality b : s <> HEALPIX -> 1 <= N -> shape f = 2 * N - 1 :: map_shape s L 0 ->
  forward_jax_ssht None f L N Lo (scheme_name s) reality b = Err MissingDependency.
Proof.
  intros Hs HN Hf. unfold forward_jax_ssht, fban_to_flmn. rewrite (proj2 (checks_ssht (scheme_name s) s (denotes_name s) Hs)). cbn [bind].
  rewrite foldM_first with (e := MissingDependency); [reflexivity|unfold n_start; destruct reality; lia|].
  destruct (gamma_analysis_plane s L N 0 reality f (n_start N reality) Hf) as (x & Ex & _); [unfold n_start; destruct reality; lia|]. rewrite Ex. reflexivity.
Qed.
Lemma upper_case lib th flmn L N o name reality pre Lo b : name <> lower name -> lower name <> "healpix" ->
  full_wigner_inverse lib th flmn L N o name "jax_ssht" reality pre Lo b = Err ValueError.
Proof.
  intros H1 H2. unfold full_wigner_inverse, checks3. change (streq "jax_ssht" "jax_ssht") with true. change (known_method3 "jax_ssht") with true.
  change (str_in "jax_ssht" ["numpy"; "jax"; "torch"]) with false. rewrite Bool.andb_false_r. cbn [negb andb].
  assert (E : streq (lower name) "healpix" = false) by now apply String.eqb_neq. unfold is_hp. rewrite E. cbn [bind].
  unfold inverse_jax_ssht, inverse_norm, so3_f_shape. rewrite E.
  assert (Q : str_in name ["mw"; "mwss"; "dh"; "gl"] = false).
  { apply Bool.not_true_iff_false. intros Q. unfold str_in in Q. apply existsb_exists in Q. destruct Q as (x & Hx & Ex). apply String.eqb_eq in Ex. subst x.
    apply H1. cbn [In] in Hx. destruct Hx as [<-|[<-|[<-|[<-|[]]]]]; reflexivity. }
  rewrite Q. reflexivity.
Qed.
