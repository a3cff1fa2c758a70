(** The loops of the on-the-fly Wigner transforms: precomputed coefficients, planes, axis of gamma. *)
From Coq Require Import Reals ZifyBool Lra.
From Coquelicot Require Import Complex.
From Verif Require Import Lib.Py Lib.PyFacts Lib.Vec Lib.VecFacts Lib.Sums Lib.Cplx Lib.Arr Lib.ArrFacts Lib.MatFacts Lib.Ext Lib.ExtFacts
  Model.Index Model.Samples Model.Grids Model.FFT Model.HealpixFFT Model.Turok Model.Resampling Model.Quadrature Model.Spherical
  Model.Precompute Model.PriceMcEwen Model.OTF Model.OTFSpherical Model.Wigner Model.OTFWigner
  Spec.SamplesSpec Spec.WignerSpec Spec.SphereSpec Spec.GridSpec Spec.HealpixFFTSpec Spec.SphericalSpec Spec.QuadSpec Spec.SO3Spec Spec.OTFSpec
  Proofs.SamplesProofs Proofs.GridProofs Proofs.PixelProofs Proofs.TurokProofs Proofs.HealpixDFTProofs Proofs.SphGrid
  Proofs.WignerCalc Proofs.SphereTheory Proofs.SphInverse Proofs.SphTop Proofs.SphForward Proofs.SphForwardTop Proofs.SphRound Proofs.SphFacts
  Proofs.WignerInverse Proofs.WignerForward Proofs.PMPre.
From Coq Require Import List.
Import ListNotations.
Open Scope string_scope.
Open Scope Z_scope.

(** ** Lists *)
Lemma lread_ok {T} (l : list T) (k : Z) x : 0 <= k -> nth_error l (Z.to_nat k) = Some x -> lread l k = Ok x.
Proof.
  intros Hk H. assert (H' : (Z.to_nat k < length l)%nat) by (apply nth_error_Some; congruence).
  unfold lread. rewrite norm_index_in by lia. now rewrite H.
Qed.
(** appending the values of a loop *)
Lemma append_loop {T} (F : Z -> result T) a b l : a <= b ->
  foldM (fun acc n => let* p := F n in Ok (acc ++ [p])%list) (zrange a b) [] = Ok l ->
  Z.of_nat (length l) = b - a /\ forall n, a <= n < b -> exists p, nth_error l (Z.to_nat (n - a)) = Some p /\ F n = Ok p.
Proof.
  intros Hab. assert (G : forall k, 0 <= k -> a + k <= b -> forall l,
    foldM (fun acc n => let* p := F n in Ok (acc ++ [p])%list) (zrange a (a + k)) [] = Ok l ->
    Z.of_nat (length l) = k /\ forall n, a <= n < a + k -> exists p, nth_error l (Z.to_nat (n - a)) = Some p /\ F n = Ok p).
  { apply (natlike_ind (fun k => a + k <= b -> forall l, foldM (fun acc n => let* p := F n in Ok (acc ++ [p])%list) (zrange a (a + k)) [] = Ok l ->
      Z.of_nat (length l) = k /\ forall n, a <= n < a + k -> exists p, nth_error l (Z.to_nat (n - a)) = Some p /\ F n = Ok p)).
    - intros _ l0. rewrite zrange_nil by lia. cbn. intros E. injection E as <-. split; [reflexivity|]. intros; lia.
    - intros k Hk IH Hb l0. unfold Z.succ. replace (a + (k + 1)) with (a + k + 1) by lia. rewrite zrange_snoc by lia. rewrite foldM_app.
      destruct (foldM _ (zrange a (a + k)) []) as [l1|e] eqn:E1; [|discriminate]. cbn [bind foldM]. destruct (IH ltac:(lia) l1 eq_refl) as (H1 & H2).
      destruct (F (a + k)) as [p|e] eqn:E2; [|discriminate]. cbn [bind]. intros E. injection E as <-. rewrite app_length. cbn [length]. split; [lia|].
      intros n Hn. destruct (Z.eq_dec n (a + k)) as [->|Q].
      + exists p. split; [|exact E2]. rewrite nth_error_app2 by lia. replace (_ - _)%nat with 0%nat by lia. reflexivity.
      + destruct (H2 n ltac:(lia)) as (p' & H3 & H4). exists p'. split; [|exact H4]. rewrite nth_error_app1 by lia. exact H3. }
  intros E. specialize (G (b - a) ltac:(lia) ltac:(lia) l). replace (a + (b - a)) with b in G by lia. auto.
Qed.
Lemma append_loop_ok {T} (F : Z -> result T) a b : a <= b -> (forall n, a <= n < b -> exists p, F n = Ok p) ->
  exists l, foldM (fun acc n => let* p := F n in Ok (acc ++ [p])%list) (zrange a b) [] = Ok l.
Proof.
  intros Hab H. destruct (foldM_inv (fun _ (_ : list T) => True) (fun acc n => let* p := F n in Ok (acc ++ [p])%list) a b []) as (l & E & _); auto.
  - intros n l Hn _. destruct (H n Hn) as (p & ->). cbn [bind]. eexists. split; [reflexivity|auto].
  - now exists l.
Qed.

Section Pre.
  Variables (th : theta_fn) (L N : Z) (name : string) (o : option Z) (fw reality : bool) (Lo : Z) (beta : vec R).
  Hypothesis (HL : 1 <= L) (HLo : 0 <= Lo < L) (HN : 1 <= N <= L) (Hb : pm_thetas th L name o fw = Ok beta).
  Notation n0 := (n_start N reality).
  Lemma n0_le : n0 <= N. Proof. unfold n_start. destruct reality; lia. Qed.
  Lemma n0_abs n : n0 <= n < N -> Z.abs (- n) < L. Proof. unfold n_start. destruct reality; lia. Qed.

  Lemma numpy_list_ok p : (p = None \/ exists l, p = Some (PreNumpy l) /\ generate_precomputes_wigner th L N name o fw reality Lo = Ok l) ->
    exists l, numpy_list th L N name o fw reality Lo p = Ok l /\
      forall n, n0 <= n < N -> exists q, lread l (n - n0) = Ok q /\ generate_precomputes th L (- n) name o fw Lo = Ok q.
  Proof.
    assert (G : forall l, generate_precomputes_wigner th L N name o fw reality Lo = Ok l ->
      forall n, n0 <= n < N -> exists q, lread l (n - n0) = Ok q /\ generate_precomputes th L (- n) name o fw Lo = Ok q).
    { intros l E n Hn. destruct (append_loop (fun n => generate_precomputes th L (- n) name o fw Lo) n0 N l n0_le E) as (_ & H).
      destruct (H n Hn) as (q & H1 & H2). exists q. split; [|exact H2]. apply lread_ok; [lia|exact H1]. }
    intros [->|(l & -> & E)].
    - destruct (append_loop_ok (fun n => generate_precomputes th L (- n) name o fw Lo) n0 N n0_le) as (l & E).
      + intros n Hn. destruct (generate_ok th L (- n) name o fw Lo beta HL HLo (n0_abs n Hn) Hb) as (q & E & _). now exists q.
      + exists l. split; [exact E|]. now apply G.
    - exists l. split; [reflexivity|]. now apply G.
  Qed.

  (** the parts that do not depend on the spin *)
  Lemma jax_rest spin spin' q q' : generate_precomputes_jax th L spin name o fw Lo None = Ok q -> generate_precomputes_jax th L spin' name o fw Lo None = Ok q' ->
    pm_cpi q = pm_cpi q' /\ pm_cp2 q = pm_cp2 q' /\ pm_indices q = pm_indices q'.
  Proof.
    unfold generate_precomputes_jax. destruct (pm_thetas th L name o fw) as [b|]; [|discriminate]. cbn [bind].
    destruct (pm_cp_jax L Lo) as [[cpi cp2]|]; [|discriminate]. cbn [bind].
    destruct (pm_lrenorm_jax b L Lo (- spin)); [|discriminate]. destruct (pm_lrenorm_jax b L Lo (- spin')); [|discriminate]. cbn [bind].
    intros E E'. injection E as <-. injection E' as <-. cbn. auto.
  Qed.

  Definition jax_step (acc : pm_pre_wigner) (n : Z) : result pm_pre_wigner :=
    let* p := generate_precomputes_jax th L (- n) name o fw Lo None in
    Ok (mkPreW (pw_lrenorm acc ++ [(pm_nt p, pm_nl p, pm_lrenorm p)])%list (pw_vsign acc ++ [pm_vsign p])%list
          (match pw_rest acc with [] => [(pm_cpi p, pm_cp2 p, pm_indices p)] | r => r end)).
  Lemma jax_gen_ok : exists w, generate_precomputes_wigner_jax th L N name o fw reality Lo = Ok w /\
    Z.of_nat (length (pw_lrenorm w)) = N - n0 /\ Z.of_nat (length (pw_vsign w)) = N - n0 /\
    forall n, n0 <= n < N -> exists q, jax_entry w (n - n0) = Ok q /\ generate_precomputes_jax th L (- n) name o fw Lo None = Ok q.
  Proof.
    destruct (foldM_inv (fun k acc => Z.of_nat (length (pw_lrenorm acc)) = k - n0 /\ Z.of_nat (length (pw_vsign acc)) = k - n0 /\
      (pw_rest acc = [] <-> k = n0) /\
      forall n, n0 <= n < k -> exists q r, generate_precomputes_jax th L (- n) name o fw Lo None = Ok q /\
        nth_error (pw_lrenorm acc) (Z.to_nat (n - n0)) = Some (pm_nt q, pm_nl q, pm_lrenorm q) /\
        nth_error (pw_vsign acc) (Z.to_nat (n - n0)) = Some (pm_vsign q) /\ pw_rest acc = (pm_cpi q, pm_cp2 q, pm_indices q) :: r)
      jax_step n0 N (mkPreW [] [] [])) as (w & E & H1 & H2 & H3 & H4).
    - apply n0_le.
    - cbn. split; [lia|]. split; [lia|]. split; [tauto|]. intros; lia.
    - intros n acc Hn (H1 & H2 & H3 & H4). unfold jax_step.
      destruct (generate_jax_ok th L (- n) name o fw Lo None beta HL HLo (n0_abs n Hn) Hb) as (q & E & _). rewrite E. cbn [bind].
      eexists. split; [reflexivity|]. cbn [pw_lrenorm pw_vsign pw_rest]. rewrite !app_length. cbn [length]. split; [lia|]. split; [lia|]. split.
      { split; [destruct (pw_rest acc); discriminate|lia]. }
      intros n' Hn'. destruct (Z.eq_dec n' n) as [->|Q].
      + exists q. rewrite !nth_error_app2 by lia. replace (Z.to_nat (n - n0) - length (pw_lrenorm acc))%nat with 0%nat by lia.
        replace (Z.to_nat (n - n0) - length (pw_vsign acc))%nat with 0%nat by lia.
        destruct (pw_rest acc) as [|x r] eqn:ER; [exists []; auto|]. exists r. split; [exact E|]. split; [reflexivity|]. split; [reflexivity|].
        destruct (Z.eq_dec n n0) as [Qn|Qn].
        * exfalso. apply H3 in Qn. congruence.
        * destruct (H4 n0 ltac:(lia)) as (q0 & r0 & E0 & _ & _ & R0). injection R0 as -> ->.
          destruct (jax_rest (- n) (- n0) q q0 E E0) as (-> & -> & ->). reflexivity.
      + destruct (H4 n' ltac:(lia)) as (q' & r' & E' & A & B & C'). rewrite C'. exists q', r'. split; [exact E'|].
        rewrite !nth_error_app1 by lia. auto.
    - exists w. split; [exact E|]. split; [exact H1|]. split; [exact H2|]. intros n Hn. destruct (H4 n Hn) as (q & r & E' & A & B & C').
      exists q. split; [|exact E']. unfold jax_entry. rewrite C'. rewrite (lread_ok _ 0 (pm_cpi q, pm_cp2 q, pm_indices q)) by (lia || reflexivity).
      cbn [bind]. rewrite (lread_ok _ (n - n0) _ ltac:(lia) A), (lread_ok _ (n - n0) _ ltac:(lia) B). cbn [bind fst snd]. now destruct q.
  Qed.
End Pre.

(** ** Scaling *)
Lemma scale_degrees_ok a L Lo w n : 0 <= Lo <= L -> shape a = [n; L; 2 * L - 1] -> exists b, scale_degrees a L Lo w = Ok b /\ shape b = [n; L; 2 * L - 1] /\
  forall i l j, get b [i; l; j] = if Lo <=? l then (get a [i; l; j] * RtoC (w l))%C else get a [i; l; j].
Proof.
  intros HLo H. unfold scale_degrees, dim1. rewrite H. cbn [nth]. rewrite slice_len_in, slice_lo_in by lia. replace (L - Lo =? Z.max 0 (L - Lo)) with true by lia.
  cbn [negb]. eexists. split; [reflexivity|]. split; [reflexivity|]. intros i l j. cbn [get nth]. destruct (Lo <=? l); [|reflexivity]. do 3 f_equal. lia.
Qed.

(** ** Setting the planes n0 .. N-1 *)
Lemma plane_loop (N n0 : Z) (sh : list Z) (Q : Z -> ndarray C -> Prop) (F : ndarray C -> Z -> result (ndarray C)) a :
  - N + 1 <= n0 <= N -> 1 <= N -> shape a = 2 * N - 1 :: sh ->
  (forall n, n0 <= n < N -> exists g, (forall a, F a n = plane_set a (N - 1 + n) g) /\ shape g = sh /\ Q n g) ->
  (forall n g g', shape g = sh -> (forall ix, get g ix = get g' ix) -> Q n g -> Q n g') ->
  exists b, foldM F (zrange n0 N) a = Ok b /\ shape b = 2 * N - 1 :: sh /\
    (forall n, n0 <= n < N -> Q n (mkArr sh (fun ix => get b (N - 1 + n :: ix)))) /\
    forall k ix, k < N - 1 + n0 -> get b (k :: ix) = get a (k :: ix).
Proof.
  intros H0 HN Ha HF HQ.
  destruct (foldM_inv (fun k b => shape b = 2 * N - 1 :: sh /\ (forall n, n0 <= n < k -> Q n (mkArr sh (fun ix => get b (N - 1 + n :: ix)))) /\
    forall j ix, j < N - 1 + n0 -> get b (j :: ix) = get a (j :: ix)) F n0 N a) as (b & E & H); [lia| | |exists b; auto].
  - split; [exact Ha|]. split; [intros; lia|reflexivity].
  - intros n b Hn (Hb & H1 & H2). destruct (HF n Hn) as (g & EF & Sg & Qg). rewrite EF.
    destruct (plane_set_ok b g (2 * N - 1) sh (N - 1 + n) Hb Sg ltac:(lia)) as (b' & E & Sb' & Gb'). exists b'. split; [exact E|]. split; [exact Sb'|].
    split.
    + intros k Hk. destruct (Z.eq_dec k n) as [->|R].
      * apply (HQ n g); auto. intros ix. cbn [get]. now rewrite Gb', Z.eqb_refl.
      * apply (HQ k (mkArr sh (fun ix => get b (N - 1 + k :: ix)))); [reflexivity| |apply H1; lia]. intros ix. cbn [get]. rewrite Gb'. zif. reflexivity.
    + intros j ix Hj. rewrite Gb'. zif. now apply H2.
Qed.

(** ** The axis of gamma *)
Section Gamma.
  Variables (s : scheme) (L N nside : Z) (reality : bool).
  Hypothesis HN : 1 <= N.
  Notation n0 := (n_start N reality).
  Lemma gamma_synthesis_ok fb (V : Z -> Z -> Z -> C) : shape fb = 2 * N - 1 :: map_shape s L nside ->
    (forall n t p, n0 <= n < N -> 0 <= t < rings s L nside -> 0 <= p < ring_size s L nside t -> get fb (N - 1 + n :: sample_index s nside t p) = V n t p) ->
    (reality = true -> forall n t p, 0 <= n < N -> 0 <= t < rings s L nside -> 0 <= p < ring_size s L nside t -> V (- n) t p = Cconj (V n t p)) ->
    shape (gamma_synthesis fb N reality) = 2 * N - 1 :: map_shape s L nside /\
    forall g t p, 0 <= g < 2 * N - 1 -> 0 <= t < rings s L nside -> 0 <= p < ring_size s L nside t ->
      get (gamma_synthesis fb N reality) (g :: sample_index s nside t p) = csum (zrange (- (N - 1)) N) (fun n => V n t p * root (2 * N - 1) (n * g))%C.
  Proof.
    intros Sb Gb HC. unfold n_start in *. unfold gamma_synthesis.
    set (P := fun ix => exists t p, 0 <= t < rings s L nside /\ 0 <= p < ring_size s L nside t /\ ix = sample_index s nside t p).
    destruct reality eqn:ER.
    - assert (Sp : shape (planes_from fb (N - 1)) = N :: map_shape s L nside).
      { unfold planes_from. cbn [shape]. rewrite Sb. cbn [hd tl]. rewrite slice_len_in by lia. f_equal. lia. }
      destruct (map_axis0_ok (fun v => irfft_fwd v (2 * N - 1)) (planes_from fb (N - 1)) N (map_shape s L nside) (2 * N - 1) P
        (fun ix => mkVec N (fun n => get fb (N - 1 + n :: ix))) Sp) as (M1 & M2).
      { apply vext_irfft. }
      { reflexivity. }
      { intros ix _. split; cbn [line0 vlen]; rewrite Sp; [reflexivity|]. intros k Hk. cbn [hd] in Hk. cbn [vat]. unfold planes_from. cbn [get hd tl].
        rewrite Sb. cbn [hd]. rewrite slice_lo_in by lia. reflexivity. }
      split; [exact M1|]. intros g t p Hg' Ht Hp. rewrite M2; [|exists t, p; auto|exact Hg'].
      apply irfft_odd; auto.
      + intros n Hn. cbn [vat]. rewrite (Gb n t p) by (auto; lia). reflexivity.
      + intros n Hn. rewrite Cconj_mult, <- HC by auto. f_equal. rewrite <- root_opp. f_equal. lia.
    - destruct (map_axis0_ok (fun v => ifft_fwd (ifftshift v)) fb (2 * N - 1) (map_shape s L nside) (2 * N - 1) P
        (fun ix => mkVec (2 * N - 1) (fun n => get fb (n :: ix))) Sb) as (M1 & M2).
      { apply (vext_comp ifft_fwd ifftshift); [apply vext_ifft_fwd|apply vext_ifftshift]. }
      { intros v Hv. exact Hv. }
      { intros ix _. split; cbn [line0 vlen]; rewrite Sb; [reflexivity|]. reflexivity. }
      split; [exact M1|]. intros g t p Hg' Ht Hp. rewrite M2; [|exists t, p; auto|exact Hg'].
      rewrite (ifft_ifftshift _ (2 * N - 1)) by (try reflexivity; lia).
      replace ((2 * N - 1) / 2) with (N - 1) by (apply Z.div_unique with 1; lia).
      replace (- (N - 1) + (2 * N - 1)) with N by lia. apply cr_ext. intros n Hn. cbn [vat].
      replace (n + (N - 1)) with (N - 1 + n) by lia. rewrite (Gb n t p) by (auto; lia). reflexivity.
  Qed.

  (** the samples the forward transform takes in: their real parts with the flag *)
  Definition seen (f : ndarray C) : ndarray C := if reality then amap (fun z => RtoC (Re z)) f else f.
  Lemma gamma_analysis_plane f n : shape f = 2 * N - 1 :: map_shape s L nside -> n0 <= n < N ->
    exists p, plane (gamma_analysis f N reality) (n - n0) = Ok p /\ shape p = map_shape s L nside /\
      forall ix, sample_ix s L nside ix -> get p ix = comp N (seen f) n ix.
  Proof.
    intros Hf Hn. unfold gamma_analysis, n_start, seen in *. destruct reality eqn:ER.
    - destruct (map_axis0_ok rfft_bwd f (2 * N - 1) (map_shape s L nside) N (sample_ix s L nside) (line0 f) Hf) as (M1 & M2).
      { apply vext_rfft. }
      { intros v Hv. cbn [rfft_bwd vlen]. rewrite Hv, half_odd. lia. }
      { intros ix _. split; auto. }
      rewrite (plane_ok _ N (map_shape s L nside)) by (cbn [amap shape]; auto; lia). eexists. split; [reflexivity|]. split; [reflexivity|].
      intros ix Hix. cbn [amap get]. rewrite M2 by (auto; lia). cbn [rfft_bwd vat fft_bwd real_part vmap vlen line0]. rewrite Hf. cbn [hd].
      unfold comp. rewrite Cmult_comm. f_equal. apply cr_ext. intros g Hg. cbn [amap get]. now rewrite Z.sub_0_r.
    - destruct (map_axis0_ok (fun v => fftshift (fft_bwd v)) f (2 * N - 1) (map_shape s L nside) (2 * N - 1) (sample_ix s L nside) (line0 f) Hf) as (M1 & M2).
      { apply (vext_comp fftshift fft_bwd); [apply vext_fftshift|apply vext_fft_bwd]. }
      { intros v Hv. exact Hv. }
      { intros ix _. split; auto. }
      rewrite (plane_ok _ (2 * N - 1) (map_shape s L nside)) by (cbn [amap shape]; auto; lia). eexists. split; [reflexivity|]. split; [reflexivity|].
      intros ix Hix. cbn [amap get]. rewrite M2 by (auto; lia). cbn [fftshift vat fft_bwd vlen line0]. rewrite Hf. cbn [hd].
      unfold comp. rewrite Cmult_comm. f_equal. apply cr_ext. intros g Hg. f_equal. rewrite half_odd.
      apply root_congr; [lia|]. rewrite <- !Z.mul_opp_r. rewrite Zmult_mod_idemp_l. f_equal. lia.
  Qed.
  Lemma gamma_analysis_dim0 f : shape f = 2 * N - 1 :: map_shape s L nside -> dim0 (gamma_analysis f N reality) = N - n0.
  Proof.
    intros Hf. unfold gamma_analysis, n_start, dim0. cbn [amap shape]. destruct reality; unfold map_axis0; cbn [shape nth line0 rfft_bwd fftshift fft_bwd vlen];
      rewrite Hf; cbn [hd]; [rewrite half_odd|]; lia.
  Qed.
End Gamma.

(** ** The planes of the coefficients *)
Section Coef.
  Variables (L N : Z) (reality : bool).
  Hypothesis (HN : 1 <= N) (HL : 1 <= L).
  Notation n0 := (n_start N reality).
  Lemma conj_plane_ok a n : shape a = [2 * N - 1; L; 2 * L - 1] -> 0 <= N - 1 + n < 2 * N - 1 -> exists q,
    (let* q := plane a (N - 1 + n) in conj_plane q L n) = Ok q /\ shape q = [L; 2 * L - 1] /\
    forall el m, get q [el; m + L - 1] = (RtoC (sgn (m + n)) * Cconj (get a [N - 1 + n; el; - m + L - 1]%Z))%C.
  Proof.
    intros Sa Hn. rewrite (plane_ok a (2 * N - 1) [L; 2 * L - 1]) by auto. cbn [bind]. unfold conj_plane, dim1. cbn [shape nth]. rewrite Z.eqb_refl.
    eexists. split; [reflexivity|]. split; [reflexivity|]. intros el m. cbn [get nth].
    replace (2 * L - 1 - 1 - (m + L - 1)) with (- m + L - 1) by lia. rewrite !Cconj_mult, !Cconj_R. replace (- L + 1 + (- m + L - 1)) with (- m) by lia.
    change (m1 (Z.abs (- m))) with (sgn (Z.abs (- m))). change (m1 n) with (sgn n). rewrite sgn_abs, sgn_opp, sgn_add, RtoC_mult. ring.
  Qed.
  (** numpy: the plane of -n is set with that of n *)
  Lemma numpy_planes (X : Z -> Z -> Z -> C) (c : Z -> ndarray C) (F : ndarray C -> Z -> result (ndarray C)) a :
    (forall n a, n0 <= n < N -> F a n =
      (let* flmn := plane_set a (N - 1 + n) (amap (fun z => (RtoC (m1 n) * z)%C) (c n)) in
       if reality && negb (n =? 0) then
         let* q := plane flmn (N - 1 + n) in let* q := conj_plane q L n in plane_set flmn (N - 1 - n) q
       else Ok flmn)) ->
    (forall n, n0 <= n < N -> holds_coefficients L (c n) (fun el m => RtoC (sgn n) * X n el m)%C) -> shape a = [2 * N - 1; L; 2 * L - 1] ->
    exists b, foldM F (zrange n0 N) a = Ok b /\ holds_coefficients3 L N b (out3 reality X).
  Proof.
    intros HF HX Sf. unfold n_start in *.
    destruct (foldM_inv (fun k a => shape a = [2 * N - 1; L; 2 * L - 1] /\
      forall n el m, n0 <= n < k \/ (reality = true /\ - k < n < 0) -> 0 <= el < L -> - L < m < L -> stored3 L N a n el m = out3 reality X n el m)
      F n0 N a) as (b & E & Sb & Gb).
    - unfold n_start. destruct reality; lia.
    - split; [exact Sf|]. unfold n_start. intros; destruct reality; lia.
    - unfold n_start in *. intros n b Hn (Sb & Gb). destruct (HX n Hn) as (Sc & Gc). rewrite HF by exact Hn.
      destruct (plane_set_ok b (amap (fun z => (RtoC (m1 n) * z)%C) (c n)) (2 * N - 1) [L; 2 * L - 1] (N - 1 + n)) as (a1 & -> & S1 & G1); auto.
      { destruct reality; lia. }
      cbn [bind].
      assert (V : forall el m, 0 <= el < L -> - L < m < L -> get a1 [N - 1 + n; el; m + L - 1] = X n el m).
      { intros el m H1 H2. rewrite G1, Z.eqb_refl. cbn [amap get]. fold (stored L (c n) el m). rewrite Gc by auto.
        change (m1 n) with (sgn n). rewrite Cmult_assoc, <- RtoC_mult, sgn_sq. ring. }
      destruct (reality && negb (n =? 0)) eqn:EQ.
      + apply andb_prop in EQ. destruct EQ as (Q1 & Q2). assert (Q3 : n <> 0) by lia.
        destruct (conj_plane_ok a1 n S1) as (q & Eq & Sq & Gq); [destruct reality; lia|].
        destruct (plane a1 (N - 1 + n)) as [q0|]; [|discriminate Eq]. cbn [bind] in *. rewrite Eq. cbn [bind].
        destruct (plane_set_ok a1 q (2 * N - 1) [L; 2 * L - 1] (N - 1 - n)) as (a2 & -> & S2 & G2); auto.
        { destruct reality; lia. }
        exists a2. split; [reflexivity|]. split; [exact S2|]. intros k el m Hk Hel Hm. unfold stored3. rewrite G2.
        destruct (Z.eqb_spec (k + N - 1) (N - 1 - n)) as [Q|Q].
        * replace k with (- n) by lia. rewrite Gq, V by lia.
          unfold out3. rewrite Q1. cbn [andb]. replace (- n <? 0) with true by (rewrite Q1 in Hn; lia). rewrite Z.opp_involutive.
          rewrite !sgn_add, sgn_opp. reflexivity.
        * rewrite G1. destruct (Z.eqb_spec (k + N - 1) (N - 1 + n)) as [R|R].
          -- replace k with n by lia. unfold out3. rewrite Q1. cbn [andb]. replace (n <? 0) with false by (rewrite Q1 in Hn; lia).
             rewrite <- (V el m) by auto. rewrite G1, Z.eqb_refl. reflexivity.
          -- apply Gb; auto. lia.
      + exists a1. split; [reflexivity|]. split; [exact S1|]. intros k el m Hk Hel Hm.
        destruct (Z.eq_dec k n) as [->|Q].
        * unfold stored3. replace (n + N - 1) with (N - 1 + n) by lia. rewrite V by auto. unfold out3.
          destruct reality; cbn [andb]; [|reflexivity]. replace (n <? 0) with false by lia. reflexivity.
        * unfold stored3. rewrite G1. replace (k + N - 1 =? N - 1 + n) with false by lia. apply Gb; auto.
          destruct reality; [|lia]. cbn [andb] in EQ. lia.
    - exists b. split; [exact E|]. split; [exact Sb|]. intros n el m H1 H2 H3. apply Gb; auto. unfold n_start. destruct reality; lia.
  Qed.
  (** JAX: the planes of negative n are set afterwards *)
  Lemma jax_planes (X : Z -> Z -> Z -> C) (c : Z -> ndarray C) (F : ndarray C -> Z -> result (ndarray C)) a :
    (forall n a, n0 <= n < N -> F a n = plane_set a (N - 1 + n) (amap (fun z => (RtoC (m1 (Z.abs n)) * z)%C) (c n))) ->
    (forall n, n0 <= n < N -> holds_coefficients L (c n) (fun el m => RtoC (sgn n) * X n el m)%C) -> shape a = [2 * N - 1; L; 2 * L - 1] ->
    exists b, (let* flmn := foldM F (zrange n0 N) a in
      if reality then
        foldM (fun a n => let* q := plane flmn (N - 1 + n) in let* q := conj_plane q L n in plane_set a (N - 1 - n) q) (zrange 1 N) flmn
      else Ok flmn) = Ok b /\ holds_coefficients3 L N b (out3 reality X).
  Proof.
    intros HF HX Sf.
    destruct (foldM_inv (fun k a => shape a = [2 * N - 1; L; 2 * L - 1] /\
      forall n el m, n0 <= n < k -> 0 <= el < L -> - L < m < L -> stored3 L N a n el m = X n el m) F n0 N a) as (b & E & Sb & Gb).
    - unfold n_start. destruct reality; lia.
    - split; [exact Sf|]. intros; lia.
    - intros n b Hn (Sb & Gb). destruct (HX n Hn) as (Sc & Gc). rewrite HF by exact Hn.
      destruct (plane_set_ok b (amap (fun z => (RtoC (m1 (Z.abs n)) * z)%C) (c n)) (2 * N - 1) [L; 2 * L - 1] (N - 1 + n)) as (a1 & -> & S1 & G1); auto.
      { unfold n_start in Hn. destruct reality; lia. }
      exists a1. split; [reflexivity|]. split; [exact S1|]. intros k el m Hk Hel Hm. unfold stored3. rewrite G1.
      destruct (Z.eqb_spec (k + N - 1) (N - 1 + n)) as [Q|Q]; [|apply Gb; auto; lia].
      replace k with n by lia. cbn [amap get]. fold (stored L (c n) el m). rewrite Gc by auto.
      change (m1 (Z.abs n)) with (sgn (Z.abs n)). rewrite sgn_abs, Cmult_assoc, <- RtoC_mult, sgn_sq. ring.
    - rewrite E. cbn [bind]. unfold n_start in Gb. destruct reality eqn:ER.
      2: { exists b. split; [reflexivity|]. split; [exact Sb|]. intros n el m H1 H2 H3. unfold out3. cbn [andb]. apply Gb; auto. lia. }
      destruct (foldM_inv (fun k d => shape d = [2 * N - 1; L; 2 * L - 1] /\
        forall n el m, 0 <= n < N \/ - k < n < 0 -> 0 <= el < L -> - L < m < L -> stored3 L N d n el m = out3 true X n el m)
        (fun a n => let* q := plane b (N - 1 + n) in let* q := conj_plane q L n in plane_set a (N - 1 - n) q) 1 N b) as (d & Ed & Sd & Gd).
      + lia.
      + split; [exact Sb|]. intros n el m [Hn|Hn] Hel Hm; [|lia]. rewrite Gb by auto. unfold out3. cbn [andb]. replace (n <? 0) with false by lia. reflexivity.
      + intros n d Hn (Sd & Gd). destruct (conj_plane_ok b n Sb) as (q & Eq & Sq & Gq); [lia|].
        destruct (plane b (N - 1 + n)) as [q0|]; [|discriminate Eq]. cbn [bind] in *. rewrite Eq. cbn [bind].
        destruct (plane_set_ok d q (2 * N - 1) [L; 2 * L - 1] (N - 1 - n)) as (a2 & -> & S2 & G2); auto; [lia|].
        exists a2. split; [reflexivity|]. split; [exact S2|]. intros k el m Hk Hel Hm. unfold stored3. rewrite G2.
        destruct (Z.eqb_spec (k + N - 1) (N - 1 - n)) as [Q|Q]; [|apply Gd; auto; lia].
        replace k with (- n) by lia. rewrite Gq. unfold out3. cbn [andb]. replace (- n <? 0) with true by lia. rewrite Z.opp_involutive.
        rewrite !sgn_add, sgn_opp. f_equal. f_equal. rewrite <- (Gb n el (- m)) by lia. unfold stored3. f_equal. f_equal. lia.
      + exists d. split; [exact Ed|]. split; [exact Sd|]. intros n el m H1 H2 H3. apply Gd; auto. lia.
  Qed.
End Coef.
