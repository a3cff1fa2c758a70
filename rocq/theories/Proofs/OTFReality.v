(** The reality flag of the on-the-fly transforms with a spin. *)
From Coq Require Import Reals Lra Lia ZifyBool Classical_Prop.
From Coquelicot Require Import Complex.
From Verif Require Import Lib.Py Lib.PyFacts Lib.Sums Lib.Cplx Lib.Vec Lib.VecFacts Lib.Arr Lib.MatFacts Lib.Ext
  Model.Index Model.Samples Model.Grids Model.FFT Model.Spherical Model.Precompute Model.PriceMcEwen Model.OTF Model.OTFSpherical
  Spec.SamplesSpec Spec.WignerSpec Spec.SphereSpec Spec.GridSpec Spec.SphericalSpec Spec.QuadSpec Spec.HealpixFFTSpec
  Proofs.SphGrid Proofs.SphInverse Proofs.SphTop Proofs.SphFacts Proofs.SphMore Proofs.PrecomputeSph Proofs.OTFSphForward Proofs.TurokProofs Proofs.RisboProofs Proofs.SphAngles.
From Coq Require Import List.
Import ListNotations.
Open Scope string_scope.
Open Scope Z_scope.

Ltac step_ok H := match type of H with bind ?x _ = Ok _ => let E := fresh "E" in destruct x eqn:E; cbn [bind] in H; [|discriminate H] end.

Lemma irfft_real r n i : is_real (vat (irfft_fwd r n) i).
Proof. reflexivity. Qed.

(** Off HEALPix everything returned under the flag is real, whatever the spin and the angles. *)
Lemma run_inverse_real th method flm L spin o name p Lo f : is_hp name = false ->
  run_inverse th method flm L spin o name true p Lo = Ok f ->
  forall i j, is_real (get f [i; j]).
Proof.
  intros Hh H i j. unfold run_inverse in H. rewrite Hh, andb_true_r in H. destruct (streq method "numpy").
  - unfold inverse_numpy in H. do 6 step_ok H. rewrite Hh in H. step_ok H. injection H as <-. reflexivity.
  - destruct (_ || _) in H; [|discriminate H]. unfold inverse_jax in H. do 6 step_ok H. rewrite Hh in H. injection H as <-. reflexivity.
Qed.

Lemma otf_inverse_flag_real th method flm L spin o name p Lo f : is_hp name = false ->
  otf_inverse th flm L spin o name method true p Lo = Ok f -> forall i j, is_real (get f [i; j]).
Proof.
  intros Hh H. unfold otf_inverse in H. destruct (negb _); [discriminate H|]. destruct (_ && _) in H; [discriminate H|]. step_ok H.
  now apply (run_inverse_real th method flm L spin o name p Lo).
Qed.

Lemma m1_re n z : Cconj (z * RtoC (m1 n))%C = (Cconj z * RtoC (m1 n))%C.
Proof. destruct z. unfold Cconj, Cmult, RtoC. cbn. f_equal; ring. Qed.


Lemma fin_econj r z : finite_at z = true -> cval (rscale r (econj z)) = (RtoC r * Cconj (cval z))%C.
Proof. destruct z as [[a| | |] [b| | |]]; cbn; try discriminate. intros _. unfold Cconj, Cmult, RtoC. cbn. f_equal; ring. Qed.

Lemma finite2_ok a f : finite2 a = Ok f -> shape f = [dim0 a; dim1 a] /\
  forall i j, 0 <= i < dim0 a -> 0 <= j < dim1 a -> finite_at (at2 a i j) = true /\ get f [i; j] = cval (at2 a i j).
Proof.
  unfold finite2. destruct (forallb _ _) eqn:E; [|discriminate]. intros [= <-]. split; [reflexivity|]. intros i j Hi Hj.
  rewrite forallb_forall in E. specialize (E i ltac:(now apply in_zrange)). rewrite forallb_forall in E.
  split; [apply E; now apply in_zrange|reflexivity].
Qed.

Lemma mirror_ok a1 L a : mirror_real a1 L (L - 1) = Ok a -> shape a1 = [L; 2 * L - 1] -> 1 <= L ->
  shape a = [L; 2 * L - 1] /\
  forall el m, 0 <= el < L -> 1 <= m < L -> at2 a el (L - 1 - m) = rscale (m1 (m mod 2)) (econj (at2 a el (L - 1 + m))).
Proof.
  intros H S HL. assert (M1 := is_mat_self a1 L (2 * L - 1) S). revert H.
  unfold mirror_real. rewrite (is_mat_dim0 _ _ _ _ M1), (is_mat_dim1 _ _ _ _ M1).
  assert (M3 := MatFacts.slice2_ok _ _ _ _ 0 L (L - 1 + 1) (2 * L - 1) M1 ltac:(lia) ltac:(lia) ltac:(lia) ltac:(lia) ltac:(lia) ltac:(lia)).
  rewrite (is_mat_dim0 _ _ _ _ M3), (is_mat_dim1 _ _ _ _ M3). rewrite Z.max_r by lia.
  replace (2 * L - 1 - (L - 1 + 1) =? L - 1) with true by lia. cbn [negb].
  set (u := mat _ _ _). assert (M5 : is_mat u (L - 0) (L - 1 - 0) (fun el i => rscale (m1 ((1 + i) mod 2)) (econj (at2 a1 (0 + el) (L - 1 + 1 + i))))).
  { replace (L - 1 - 0) with (2 * L - 1 - (L - 1 + 1)) by lia. eapply is_mat_ext; [apply is_mat_mat|]. intros el i Hel Hi. cbn beta.
    now rewrite (proj2 M3) by lia. }
  destruct (PrecomputeSph.slice2_set_ok _ _ _ _ _ _ 0 L 0 (L - 1) M1 (flip1_ok _ _ _ _ M5) ltac:(lia) ltac:(lia) ltac:(lia) ltac:(lia) ltac:(lia) ltac:(lia))
    as (a2 & E & H2). rewrite E. intros [= <-]. split; [apply H2|]. intros el m Hel Hm. rewrite !(proj2 H2) by lia.
  replace ((0 <=? el) && (el <? L) && (0 <=? L - 1 - m) && (L - 1 - m <? L - 1)) with true by lia.
  replace ((0 <=? el) && (el <? L) && (0 <=? L - 1 + m) && (L - 1 + m <? L - 1)) with false by lia.
  rewrite !Z.sub_0_r, Z.add_0_l. replace (1 + (L - 1 - 1 - (L - 1 - m))) with m by lia.
  replace (L - 1 + 1 + (L - 1 - 1 - (L - 1 - m))) with (L - 1 + m) by lia. reflexivity.
Qed.

(** Every array of coefficients returned under the flag has the symmetry of a real signal of spin 0. *)
Lemma tail_hermitian a1 L k sg f : 1 <= L ->
  (let* flm := mirror_real a1 L (L - 1) in
   let flm := clear_rows flm k in
   let* flm := finite2 flm in
   Ok (mscal (fun z => (z * RtoC (m1 sg))%C) flm)) = Ok f ->
  shape a1 = [dim0 a1; dim1 a1] -> shape f = [L; 2 * L - 1] ->
  forall el m, 0 <= el < L -> 1 <= m < L -> stored L f el (- m) = (RtoC (sgn m) * Cconj (stored L f el m))%C.
Proof.
  intros HL H S1 Sf el m Hel Hm.
  destruct (mirror_real a1 L (L - 1)) as [a2|] eqn:E2; cbn [bind] in H; [|discriminate H]. cbv zeta in H.
  destruct (finite2 (clear_rows a2 k)) as [a3|] eqn:E3; cbn [bind] in H; [|discriminate H]. injection H as <-.
  destruct (finite2_ok _ _ E3) as [S3 V3].
  assert (D : dim0 a2 = dim0 a1 /\ dim1 a2 = dim1 a1).
  { unfold mirror_real in E2. cbv zeta in E2. destruct (negb _) in E2; [discriminate E2|].
    unfold slice2_set, slice2_add in E2. destruct (negb _) in E2; [discriminate E2|]. injection E2 as <-. auto. }
  change (shape (mscal _ a3)) with [dim0 a3; dim1 a3] in Sf.
  assert (D3 : dim0 a3 = dim0 a2 /\ dim1 a3 = dim1 a2) by (unfold dim0, dim1 in *; rewrite S3; auto).
  assert (S : shape a1 = [L; 2 * L - 1]) by (rewrite S1, <- (proj1 D), <- (proj2 D), <- (proj1 D3), <- (proj2 D3); exact Sf).
  destruct (mirror_ok a1 L a2 E2 S HL) as [S2 V2].
  assert (Dc : dim0 (clear_rows a2 k) = L /\ dim1 (clear_rows a2 k) = 2 * L - 1).
  { unfold clear_rows, dim0, dim1. cbn [shape mat nth]. rewrite S2. auto. }
  destruct Dc as [Dc0 Dc1]. rewrite Dc0, Dc1 in V3. unfold stored.
  replace (- m + L - 1) with (L - 1 - m) by lia. replace (m + L - 1) with (L - 1 + m) by lia.
  change (get (mscal _ a3) [el; L - 1 - m]) with (get a3 [el; L - 1 - m]%Z * RtoC (m1 sg))%C.
  change (get (mscal _ a3) [el; L - 1 + m]) with (get a3 [el; L - 1 + m]%Z * RtoC (m1 sg))%C.
  rewrite m1_re, Cmult_assoc. f_equal.
  rewrite (proj2 (V3 el (L - 1 - m) Hel ltac:(lia))), (proj2 (V3 el (L - 1 + m) Hel ltac:(lia))).
  pose proof (proj1 (V3 el (L - 1 + m) Hel ltac:(lia))) as F.
  change (at2 (clear_rows a2 k) el ?j) with (if el <? k then fin (RtoC 0) else at2 a2 el j) in *. destruct (el <? k).
  - unfold fin, cval. cbn. unfold Cconj, Cmult, RtoC. cbn. f_equal; ring.
  - rewrite V2 by lia. rewrite fin_econj by exact F. f_equal. f_equal. apply mod2_sgn.
Qed.

Lemma run_forward_hermitian gl th method f L spin o name p Lo flm : 1 <= L ->
  run_forward gl th method f L spin o name true p Lo = Ok flm -> shape flm = [L; 2 * L - 1] ->
  forall el m, 0 <= el < L -> 1 <= m < L -> stored L flm el (- m) = (RtoC (sgn m) * Cconj (stored L flm el m))%C.
Proof.
  intros HL H S. unfold run_forward in H. destruct (streq method "numpy").
  - unfold forward_numpy in H. destruct (otf_prepare _ _ _ _ _ _ _) as [[[f' s'] ths]|] eqn:E0; cbn [bind] in H; [|discriminate H]. cbv zeta in H.
    do 6 step_ok H. step_ok H. eapply tail_hermitian; [exact HL|exact H| |exact S].
    match goal with E : normalise _ _ _ _ = Ok ?x |- shape ?x = _ => unfold normalise in E; destruct (negb _) in E; [discriminate E|]; injection E as <-; reflexivity end.
  - destruct (_ || _) in H; [|discriminate H]. unfold forward_jax in H. destruct (otf_prepare _ _ _ _ _ _ _) as [[[f' s'] ths]|] eqn:E0; cbn [bind] in H; [|discriminate H]. cbv zeta in H.
    do 6 step_ok H. eapply tail_hermitian; [exact HL|exact H| |exact S].
    match goal with E : normalise _ _ _ _ = Ok ?x |- shape ?x = _ => unfold normalise in E; destruct (negb _) in E; [discriminate E|]; injection E as <-; reflexivity end.
Qed.

(** The two counterexamples *)
Definition one_at (L l m : Z) (z : C) : ndarray C := mat L (2 * L - 1) (fun el j => if (el =? l) && (j =? m + L - 1) then z else RtoC 0).
Lemma one_at_stored L l m z el n : stored L (one_at L l m z) el n = if (el =? l) && (n =? m) then z else RtoC 0.
Proof. unfold stored, one_at, mat. cbn [get nth]. replace (n + L - 1 =? m + L - 1) with (n =? m) by lia. reflexivity. Qed.

Section Counter.
Variables (gl : gl_rule) (th : theta_fn) (L spin : Z) (s : scheme) (o : option Z) (method : string) (p : option pm_pre) (Lo : Z).
Hypotheses (Hs : s <> HEALPIX) (Hsp : spin <> 0) (Hl : Z.abs spin < L) (HLo : 0 <= Lo <= Z.abs spin)
  (HG : s = GL -> gauss_legendre L (gl_nodes gl L) (gl_weights gl L)) (Hgrid : small_grid (vat (gl_nodes gl L)) s L 0).
Let nodes := vat (gl_nodes gl L).

Lemma counter_setting : setting (scheme_name s) s L 0 o.
Proof. split; [destruct s; reflexivity|]. split; [lia|congruence]. Qed.
Lemma counter_sizes : rule_sizes s L (gl_nodes gl L) (gl_weights gl L).
Proof. intros Q. destruct (HG Q) as (H1 & H2 & _). auto. Qed.

Lemma counter_synthesis flm reality : shape flm = [L; 2 * L - 1] ->
  exists f, inverse gl flm L spin (scheme_name s) o reality Lo = Ok f /\
    holds_samples nodes s L 0 f (synth L spin (above Lo (stored L flm))).
Proof.
  intros Hf. destruct (synthesis_lemma gl (scheme_name s) s flm L spin "sov_fft_vectorized" 0 o reality Lo counter_setting) as (f & E & H); auto.
  - lia.
  - intros Q. apply (proj1 (counter_sizes Q)).
  - now apply small_away.
  - right. split; [right; reflexivity|]. split; [reflexivity|]. split; [congruence|]. congruence.
  - exists f. split; [exact E|]. unfold used_coefficients in H. replace (spin =? 0) with false in H by lia. now rewrite andb_false_r in H.
Qed.

Lemma counter_analysis f c reality : holds_samples nodes s L 0 f (synth L spin c) ->
  exists flm, forward gl f L spin (scheme_name s) o reality Lo = Ok flm /\ holds_coefficients L flm (restricted Lo spin c).
Proof.
  intros H. apply (recover_lemma gl (scheme_name s) s f L spin "sov_fft_vectorized" 0 o reality Lo c counter_setting); auto.
  - lia.
  - exact counter_sizes.
  - now apply small_forward.
  - right. split; [right; reflexivity|]. split; [auto|]. congruence.
  - congruence.
Qed.

Lemma counter_forward : exists f c, shape f = map_shape s L 0 /\
  holds_samples nodes s L 0 f (synth L spin c) /\
  (exists flm, forward gl f L spin (scheme_name s) o true Lo = Ok flm /\ holds_coefficients L flm (restricted Lo spin c)) /\
  ~ same_ok (forward gl f L spin (scheme_name s) o true Lo) (otf_forward gl th f L spin o (scheme_name s) method true p Lo None).
Proof.
  set (l := Z.abs spin). set (flm := one_at L l 1 (RtoC 1)).
  destruct (counter_synthesis flm true eq_refl) as (f & E & H).
  destruct (counter_analysis f _ true H) as (x & Ex & Hx). exists f, (above Lo (stored L flm)).
  split; [apply H|]. split; [exact H|]. split; [now exists x|].
  intros (a & b & Ea & Eb & Sab & Vab). rewrite Ex in Ea. injection Ea as <-.
  assert (Q : run_forward gl th method f L spin o (scheme_name s) true p Lo = Ok b).
  { unfold otf_forward in Eb. destruct (negb _) in Eb; [discriminate Eb|]. destruct (_ && _) in Eb; [discriminate Eb|].
    step_ok Eb. replace (is_hp (scheme_name s)) with false in Eb by (destruct s; try congruence; reflexivity). exact Eb. }
  assert (Sb : shape b = [L; 2 * L - 1]) by (rewrite <- Sab; apply Hx).
  pose proof (run_forward_hermitian gl th method f L spin o (scheme_name s) p Lo b ltac:(lia) Q Sb l 1 ltac:(lia) ltac:(lia)) as K.
  assert (V : forall m, - L < m < L -> stored L b l m = restricted Lo spin (above Lo (stored L flm)) l m).
  { intros m Hm. rewrite <- (proj2 Hx) by lia. symmetry. apply Vab. rewrite (proj1 Hx). apply in_shape2; lia. }
  rewrite !V in K by lia. unfold restricted, above in K. replace (Z.max Lo (Z.abs spin) <=? l) with true in K by lia.
  replace (Z.abs (- (1)) <=? l) with true in K by lia. replace (Z.abs 1 <=? l) with true in K by lia. cbn [andb] in K.
  replace (l <? Lo) with false in K by lia. unfold flm in K. rewrite !one_at_stored in K. rewrite Z.eqb_refl in K. cbn [andb Z.eqb Z.opp] in K.
  assert (K' := f_equal Re K). unfold sgn in K'. cbn in K'. lra.
Qed.

Lemma synth_scale z c x phi : synth L spin (fun l m => (z * c l m)%C) x phi = (z * synth L spin c x phi)%C.
Proof.
  unfold synth. rewrite <- cs_scal_l. apply cs_ext. intros l _. rewrite <- cs_scal_l. apply cs_ext. intros m _. ring.
Qed.

Lemma counter_inverse : exists flm y, shape flm = [L; 2 * L - 1] /\ inverse gl flm L spin (scheme_name s) o true Lo = Ok y /\
  holds_samples nodes s L 0 y (synth L spin (above Lo (stored L flm))) /\
  ~ same_ok (inverse gl flm L spin (scheme_name s) o true Lo) (otf_inverse th flm L spin o (scheme_name s) method true p Lo).
Proof.
  set (l := Z.abs spin). 
  destruct (counter_synthesis (one_at L l 0 (RtoC 1)) true eq_refl) as (f1 & E1 & H1).
  destruct (counter_synthesis (one_at L l 0 Ci) true eq_refl) as (f2 & E2 & H2).
  assert (RE : forall flm y, inverse gl flm L spin (scheme_name s) o true Lo = Ok y -> shape y = map_shape s L 0 ->
    same_ok (inverse gl flm L spin (scheme_name s) o true Lo) (otf_inverse th flm L spin o (scheme_name s) method true p Lo) ->
    forall t q, 0 <= t < rings s L 0 -> 0 <= q < per_ring s L -> is_real (get y [t; q])).
  { intros flm y E S (a & b & Ea & Eb & Sab & Vab) t q Ht Hq. rewrite E in Ea. injection Ea as <-. rewrite Vab.
    - apply (otf_inverse_flag_real th method flm L spin o (scheme_name s) p Lo); [destruct s; try congruence; reflexivity|exact Eb].
    - rewrite S. destruct s; try congruence; apply in_shape2; lia. }
  destruct (classic (same_ok (inverse gl (one_at L l 0 (RtoC 1)) L spin (scheme_name s) o true Lo)
    (otf_inverse th (one_at L l 0 (RtoC 1)) L spin o (scheme_name s) method true p Lo))) as [Q1|Q1];
    [|exists (one_at L l 0 (RtoC 1)), f1; auto].
  exists (one_at L l 0 Ci), f2. split; [reflexivity|]. split; [exact E2|]. split; [exact H2|]. intros Q2.
  pose proof (RE _ _ E1 (proj1 H1) Q1) as R1. pose proof (RE _ _ E2 (proj1 H2) Q2) as R2.
  assert (Z1 : holds_samples nodes s L 0 f1 (synth L spin (fun _ _ => RtoC 0))).
  { split; [apply H1|]. intros t q x Ht Hq Hx.
    assert (IX : sample_index s 0 t q = [t; q]) by (destruct s; try congruence; reflexivity).
    assert (RS : ring_size s L 0 t = per_ring s L) by (destruct s; try congruence; reflexivity).
    specialize (R1 t q Ht ltac:(lia)). specialize (R2 t q Ht ltac:(lia)).
    pose proof (proj2 H1 t q x Ht Hq Hx) as V1. pose proof (proj2 H2 t q x Ht Hq Hx) as V2. rewrite IX in *.
    assert (EQ : get f2 [t; q] = (Ci * get f1 [t; q])%C).
    { rewrite V1, V2, <- synth_scale. unfold synth. apply cs_ext. intros l' _. apply cs_ext. intros m _. f_equal.
      unfold above. destruct (l' <? Lo); [ring|]. rewrite !one_at_stored. destruct (_ && _); ring. }
    replace (synth L spin (fun _ _ => RtoC 0) x (longitude s L 0 t q)) with (RtoC 0).
    - rewrite EQ in R2. unfold is_real in *. destruct (get f1 [t; q]) as [u v]. cbn in R1, R2. unfold RtoC. f_equal; lra.
    - pose proof (synth_scale (RtoC 0) (fun _ _ => RtoC 0) x (longitude s L 0 t q)) as Z0. cbn beta in Z0. rewrite Cmult_0_l in Z0.
      rewrite Z0. now rewrite Cmult_0_l. }
  destruct (counter_analysis f1 _ true H1) as (a & Ea & Ha). destruct (counter_analysis f1 _ true Z1) as (b & Eb & Hb).
  rewrite Ea in Eb. injection Eb as <-. pose proof (proj2 Ha l 0 ltac:(lia) ltac:(lia)) as A1. rewrite (proj2 Hb l 0 ltac:(lia) ltac:(lia)) in A1.
  unfold restricted, above in A1. replace (Z.max Lo (Z.abs spin) <=? l) with true in A1 by lia. replace (Z.abs 0 <=? l) with true in A1 by lia.
  replace (l <? Lo) with false in A1 by lia. rewrite one_at_stored, Z.eqb_refl in A1. cbn [andb Z.eqb] in A1.
  apply (f_equal Re) in A1. cbn in A1. lra.
Qed.
End Counter.
