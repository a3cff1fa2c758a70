(** Cases in which the reference methods disagree. *)
From Coq Require Import Reals ZifyBool Lra.
From Coquelicot Require Import Complex.
From Verif Require Import Lib.Py Lib.PyFacts Lib.Vec Lib.VecFacts Lib.Sums Lib.Cplx Lib.Arr Lib.ArrFacts Lib.MatFacts
  Model.Index Model.Samples Model.Grids Model.FFT Model.HealpixFFT Model.Turok Model.Resampling Model.Quadrature Model.Spherical
  Spec.SamplesSpec Spec.WignerSpec Spec.SphereSpec Spec.GridSpec Spec.HealpixFFTSpec Spec.SphericalSpec Spec.QuadSpec
  Proofs.SamplesProofs Proofs.GridProofs Proofs.TurokProofs Proofs.SphGrid
  Proofs.ResamplingProofs Proofs.ResamplingFacts Proofs.ResamplingGen Proofs.QuadProofs
  Proofs.SphInverse Proofs.SphTop Proofs.SphForward Proofs.SphForwardTop Proofs.SphRound Proofs.SphFacts Proofs.SphAngles.
Open Scope string_scope.
Open Scope Z_scope.

Lemma wig_00 x : wigner_d 0 0 0 x = 1%R.
Proof.
  unfold wigner_d. change (zrange (Z.max 0 (0 - 0)) (Z.min (0 + 0) (0 - 0) + 1)) with [0]. cbn. unfold zf, zpow, sgn. cbn.
  replace (1 * 1 * 1 * 1)%R with 1%R by ring. rewrite sqrt_1. field.
Qed.
Lemma slice_1 x re : away_from_poles x -> exists dl, turok_slice x 0 1 0 re = Ok dl /\ vread dl 0 = Ok 1%R.
Proof.
  intros Hx. destruct (dl_ok x 0 1 0 re) as (v & E & El & H); try (cbn; lia); auto. exists v. split; [exact E|].
  rewrite vread_in by lia. f_equal. rewrite <- (wig_00 x). apply (H 0); lia.
Qed.

Definition one_by_one (z : C) : ndarray C := mat 1 1 (fun _ _ => z).

Lemma mwss_upper_case gl : exists f, inverse_ gl (one_by_one (RtoC 1)) 1 0 "MWSS" "sov_fft" None false 0 = Ok f /\ get f [0; 1] = (- get f [0; 0])%C /\ get f [0;0] <> RtoC 0.
Proof.
  unfold inverse_. change (shape_is (shape (one_by_one (RtoC 1))) (flm_shape 1)) with true. cbn [assert_ bind].
  change (0 <? 1) with true. change ((0 <=? 0) && (0 <? 1)) with true. cbn [assert_ bind andb].
  destruct (thetas_top gl "MWSS" MWSS 1 0 None eq_refl ltac:(lia) ltac:(discriminate) ltac:(discriminate)) as (ths & -> & Hl & Hth). cbn [bind].
  change (streq "sov_fft" "direct") with false. change (streq "sov_fft" "sov") with false. change (streq "sov_fft" "sov_fft") with true. cbv iota.
  unfold inverse_sov_fft. change (is_hp "MWSS") with false. cbv iota. cbn [bind].
  change (ftm_shape (Some 1) "MWSS" None) with (Ok [2; 2]). cbn [bind].
  unfold enum. rewrite Hl. change (zrange 0 (rings MWSS 1 0)) with [0; 1]. cbn [foldM].
  change (el_range 0 0 1) with [0]. cbn [foldM]. change (- 0) with 0.
  assert (A : forall t, 0 <= t <= 1 -> away_from_poles (vat ths t)) by (intros t Ht; rewrite Hth by (cbn; lia); apply mwss_away; lia).
  destruct (slice_1 (vat ths 0) false (A 0 ltac:(lia))) as (d0 & E0 & R0). destruct (slice_1 (vat ths 1) false (A 1 ltac:(lia))) as (d1 & E1 & R1).
  rewrite E0, E1. cbn [bind]. change (zrange 0 (0 + 1)) with [0]. cbn [foldM andb bind]. change (0 + 1 - 1) with 0. rewrite R0, R1. cbn [bind].
  set (v := (RtoC (m1 0 * elfactor 0 * 1))%R).
  change (aread (one_by_one (RtoC 1)) [0; 0]) with (Ok (RtoC 1)). cbn [bind].
  set (F := map_rows (fun r => ifft_fwd (ifftshift r)) (mkArr [2; 2]
    (upd (upd (fun _ : list Z => RtoC 0) [0; 0] (RtoC 0 + v * RtoC 1 * RtoC 1)) [1; 0] (RtoC 0 + v * RtoC 1 * RtoC 1))%C)).
  exists F. split; [reflexivity|].
  assert (G : forall p, get F [0; p] = (v * root 2 p)%C).
  { intros p. unfold F. cbn [map_rows mat get nth]. cbn [ifft_fwd vat ifftshift vlen row dim1 shape nth]. change (zrange 0 2) with [0; 1].
    cbn [suml fold_right]. change ((0 + 2 / 2) mod 2) with 1. change ((1 + 2 / 2) mod 2) with 0. unfold upd.
    unfold at2. cbn [get]. repeat (destruct (list_eq_dec Z.eq_dec _ _); try congruence).
    replace (1 * p) with p by lia. ring. }
  rewrite !G. assert (R1' : root 2 1 = (- RtoC 1)%C).
  { unfold root. transitivity (cis PI); [f_equal; lra|]. rewrite cis_PI, <- RtoC_opp. reflexivity. }
  rewrite R1', root_0. split; [ring|]. rewrite Cmult_1_r. unfold v. intros Q. apply RtoC_inj in Q.
  change (m1 0) with 1%R in Q. assert (0 < elfactor 0)%R; [|lra]. unfold elfactor. apply sqrt_lt_R0. assert (P := PI_RGT_0).
  apply Rdiv_lt_0_compat; [apply IZR_lt; lia|lra].
Qed.

Lemma elf_pos : (0 < elfactor 0)%R.
Proof. unfold elfactor. apply sqrt_lt_R0. assert (P := PI_RGT_0). apply Rdiv_lt_0_compat; [apply IZR_lt; lia|lra]. Qed.

Lemma imaginary_dropped gl : exists f, inverse_ gl (one_by_one Ci) 1 0 "mw" "sov_fft" None true 0 = Ok f /\ is_real (get f [0; 0]).
Proof.
  unfold inverse_. change (shape_is (shape (one_by_one Ci)) (flm_shape 1)) with true. cbn [assert_ bind].
  change (0 <? 1) with true. change ((0 <=? 0) && (0 <? 1)) with true. cbn [assert_ bind andb].
  destruct (thetas_top gl "mw" MW 1 0 None eq_refl ltac:(lia) ltac:(discriminate) ltac:(discriminate)) as (ths & -> & Hl & Hth). cbn [bind].
  change (streq "sov_fft" "direct") with false. change (streq "sov_fft" "sov") with false. change (streq "sov_fft" "sov_fft") with true. cbv iota.
  unfold inverse_sov_fft. change (is_hp "mw") with false. cbv iota. cbn [bind].
  change (ftm_shape (Some 1) "mw" None) with (Ok [1; 1]). cbn [bind].
  unfold enum. rewrite Hl. change (zrange 0 (rings MW 1 0)) with [0]. cbn [foldM].
  change (el_range 0 0 1) with [0]. cbn [foldM]. change (- 0) with 0. change (if negb (0 =? 0) then false else true) with true.
  destruct (slice_1 (vat ths 0) true) as (d0 & E0 & R0); [rewrite Hth by (cbn; lia); apply mw_away; lia|].
  rewrite E0. cbn [bind]. change (zrange 0 (0 + 1)) with [0]. cbn [foldM andb bind]. change (0 + 1 - 1) with 0. rewrite R0. cbn [bind].
  eexists. split; [reflexivity|]. reflexivity.
Qed.

(** ** Real samples that are not those of a signal of band-limit L *)
Definition corner : ndarray C := mat 2 2 (fun t p => if (t =? 0) && (p =? 0) then RtoC 1 else RtoC 0).
Lemma corner_up : (up_op 1 0 (at2 corner) 1 0 = (RtoC (/ 2) - RtoC (/ 2) * Ci)%C) /\ up_op 1 0 (at2 corner) 1 1 = RtoC 0 /\
  forall p, 0 <= p < 2 -> is_real (up_op 1 0 (at2 corner) 0 p) /\ is_real (up_op 1 0 (at2 corner) 2 p).
Proof.
  assert (R21 : root 2 1 = (- RtoC 1)%C).
  { unfold root. transitivity (cis PI); [f_equal; lra|]. rewrite cis_PI, <- RtoC_opp. reflexivity. }
  assert (R4 : root 4 (-1) = (- Ci)%C).
  { change (-1) with (- (1)). rewrite root_opp. unfold root. replace (2 * PI * 1 / 4)%R with (PI / 2)%R by field. rewrite cis_PI2.
    unfold Cconj, Ci, Copp. cbn. f_equal; ring. }
  assert (R42 : root 4 (-2) = (- RtoC 1)%C).
  { change (-2) with (- (2)). rewrite root_opp. unfold root. replace (2 * PI * 2 / 4)%R with PI by field. rewrite cis_PI. unfold Cconj, Copp, RtoC. cbn. f_equal; ring. }
  assert (U : forall t p, 0 <= p < 2 -> up_op 1 0 (at2 corner) t p = if p =? 0 then (RtoC (/ 2) * (RtoC 1 + root 4 (- t)))%C else RtoC 0).
  { intros t p Hp. unfold up_op. change (zrange (- (1)) 1) with [-1; 0]. cbn [suml fold_right]. change (2 * 1) with 2. change (4 * 1) with 4.
    unfold dft. change (zrange 0 2) with [0; 1]. cbn [suml fold_right]. unfold spatial_rows. change (0 <? 1 + 1) with true. change (1 <? 1 + 1) with true.
    cbv iota. unfold corner, at2, mat. cbn [get nth]. change (0 =? 0) with true. change (1 =? 0) with false. cbn [andb].
    replace (-1 * t) with (- t) by lia. change (- (-1 * 0)) with 0. change (- (0 * 0)) with 0. change (- (-1 * 1)) with 1. change (- (0 * 1)) with 0.
    rewrite !root_0, R21. change (0 * t) with 0. rewrite ?root_0.
    assert (N2 : RtoC 2 <> RtoC 0) by (intros Q; apply RtoC_inj in Q; lra).
    rewrite (RtoC_inv 2) by lra. destruct (p =? 0); field; auto. }
  split; [|split].
  - rewrite U by lia. change (0 =? 0) with true. cbv iota. change (- (1)) with (-1). rewrite R4. ring.
  - now rewrite U by lia.
  - intros p Hp. rewrite !U by lia. change (- 0) with 0. change (- (2)) with (-2). rewrite root_0, R42.
    destruct (p =? 0); split; try reflexivity; unfold is_real, Im, Cmult, Cplus, Copp, RtoC; cbn; ring.
Qed.

Lemma middle_weight gl w : quad_weights_transform gl 1 "mwss" 0 None = Ok w -> (0 < vat w 1)%R.
Proof.
  unfold quad_weights_transform. change (streq (lower "mwss") "mwss") with true. cbv iota.
  destruct (mwss_weights_ok (2 * 1) 0 ltac:(lia)) as (q & -> & Hl & Hq). cbn [bind]. intros [= <-]. cbn [vmap vat].
  rewrite Hq by lia. change ((1 <=? 1) && (1 <? 2 * 1)) with true. cbv iota. change (sgn 0) with 1%R.
  assert (E : forall k, 0 <= k -> equi_weight (2 * 1) (2 * (2 * 1)) (mwss_theta (2 * 1) k) = ((2 + PI * sin (IZR k * PI / 2)) / 4)%R).
  { intros k _. unfold equi_weight. change (zrange (- (2 * 1 - 1)) (2 * 1)) with [-1; 0; 1]. cbn [suml fold_right].
    unfold mw_weights. cbn [Z.eqb Z.modulo Z.div_eucl]. change (2 * 1) with 2. unfold mwss_theta.
    change (0 mod 2 =? 0) with true. cbv iota. change (1 - 0 ^ 2) with 1. change (2 * 2) with 4. set (x := (IZR k * PI / 2)%R).
    unfold cis, Ci, Cmult, Cplus, Copp, RtoC, Re. cbn.
    replace (- (-1 * x))%R with x by ring. replace (- (1 * x))%R with (- x)%R by ring. replace (- (0 * x))%R with 0%R by ring.
    rewrite cos_neg, sin_neg, cos_0, sin_0. field. }
  rewrite !E by lia. change (2 * (2 * 1) - 1) with 3. 
  replace (1 * PI / 2)%R with (PI / 2)%R by field. replace (3 * PI / 2)%R with (3 * (PI / 2))%R by field. rewrite sin_PI2, sin_3PI2.
  assert (P := PI_RGT_0). replace ((2 + PI * 1) / 4 + 1 * ((2 + PI * -1) / 4))%R with 1%R by field. change (IZR (2 * 1)) with 2%R. lra.
Qed.

Lemma caplus_00 (f : ndarray C) v : shape f = [1; 1] -> exists f', caplus f [0; 0] v = Ok f' /\ shape f' = [1; 1] /\ get f' [0; 0] = (get f [0; 0] + v)%C.
Proof.
  intros Hf. unfold aplus. rewrite aread_in by (rewrite Hf; cbn; lia). cbn [bind]. rewrite awrite_in by (rewrite Hf; cbn; lia).
  eexists. split; [reflexivity|]. split; [exact Hf|]. reflexivity.
Qed.

Lemma corner_direct gl : exists flm, forward_ gl corner 1 0 "mwss" "direct" None true 0 = Ok flm /\ shape flm = [1; 1] /\ ~ is_real (get flm [0; 0]).
Proof.
  unfold forward_. change (f_shape (Some 1) "mwss" None) with (Ok [2; 2]). cbn [bind].
  change (shape_is (shape corner) [2; 2]) with true. cbn [assert_ bind].
  change (0 <? 1) with true. change ((0 <=? 0) && true) with true. cbn [assert_ bind andb]. change (if negb (0 =? 0) then false else true) with true.
  destruct (prepare_ok gl "mwss" MWSS corner 1 0 0 None eq_refl ltac:(lia) ltac:(discriminate) ltac:(discriminate) eq_refl)
    as (f' & ths & w & -> & G & Hsh & Lw & Ew & HV). cbn [bind fname].
  change (streq "direct" "direct") with true. cbv iota.
  destruct (go_ph _ _ _ _ _ G) as (peq & Ep & Hp). pose proof (go_n _ _ _ _ _ G) as Gn. pose proof (go_th _ _ _ _ _ G) as Gt.
  cbn [fname fgrid equi_grid gn gN gth gph gsh ge] in *.
  unfold forward_direct. rewrite Ep. cbn [bind]. 
  match goal with |- exists flm, enum ths ?B _ = _ /\ _ => set (body := B) end.
  assert (ST : forall t flm, 0 <= t < 3 -> shape flm = [1; 1] -> exists flm', body flm t (vat ths t) = Ok flm' /\ shape flm' = [1; 1] /\
    get flm' [0; 0] = (get flm [0; 0] + RtoC (vat w t * elfactor 0) * (fvals MWSS 1 0 0 corner t 0 + fvals MWSS 1 0 0 corner t 1))%C).
  { intros t flm Ht Hf. unfold body. destruct (Hp t ltac:(lia)) as (v & Ev & Lv & Hv). cbn [per_ring] in *. rewrite Ev. cbn [bind].
    change (el_range 0 0 1) with [0]. cbn [foldM]. change (- 0) with 0.
    destruct (slice_1 (vat ths t) true) as (d0 & E0 & R0); [rewrite Gt by lia; apply mwss_away; lia|]. rewrite E0. cbn [bind].
    unfold enum. rewrite Lv. change (zrange 0 (2 * 1)) with [0; 1]. cbn [foldM]. unfold pix_entry. change (is_hp "mwss") with false. cbv iota. cbn [bind].
    rewrite vread_in by lia. cbn [bind]. change (1 - 1) with 0. rewrite R0. cbn [bind].
    change (zrange 1 (0 + 1)) with (@nil Z). cbn [foldM].
    assert (RD : forall p, 0 <= p < 2 -> aread f' [t; p] = Ok (fvals MWSS 1 0 0 corner t p)).
    { intros p Hpp. rewrite <- HV by (split; cbn; lia). apply aread_in. rewrite Hsh. cbn [in_shape]. lia. }
    rewrite !RD by lia. cbn [bind].
    destruct (caplus_00 flm (RtoC (vat w t * m1 0 * elfactor 0 * 1) * fvals MWSS 1 0 0 corner t 0)%C Hf) as (f1 & F1 & S1 & G1).
    rewrite F1. cbn [bind foldM].
    destruct (caplus_00 f1 (RtoC (vat w t * m1 0 * elfactor 0 * 1) * fvals MWSS 1 0 0 corner t 1)%C S1) as (f2 & F2 & S2 & G2).
    rewrite F2. exists f2. split; [reflexivity|]. split; [exact S2|]. rewrite G2, G1. change (m1 0) with 1%R. rewrite !RtoC_mult. ring. }
  unfold enum. rewrite Gn. change (zrange 0 (2 * 1 + 1)) with [0; 1; 2]. cbn [foldM].
  destruct (ST 0 (zeros (RtoC 0) (flm_shape 1)) ltac:(lia) eq_refl) as (f0 & -> & S0 & G0). cbn [bind].
  destruct (ST 1 f0 ltac:(lia) S0) as (f1 & -> & S1 & G1). cbn [bind].
  destruct (ST 2 f1 ltac:(lia) S1) as (f2 & -> & S2 & G2). cbn [bind].
  exists f2. split; [reflexivity|]. split; [exact S2|]. rewrite G2, G1, G0. cbn [zeros get fvals].
  destruct corner_up as (U1 & U2 & U3). rewrite U1, U2. destruct (U3 0 ltac:(lia)) as [Ra Rb]. destruct (U3 1 ltac:(lia)) as [Rc Rd].
  assert (W := middle_weight gl w Ew). assert (P := elf_pos).
  revert Ra Rb Rc Rd. destruct (up_op 1 0 (at2 corner) 0 0) as [a a'], (up_op 1 0 (at2 corner) 2 0) as [b b'],
    (up_op 1 0 (at2 corner) 0 1) as [c c'], (up_op 1 0 (at2 corner) 2 1) as [d d'].
  unfold is_real, Im, Cmult, Cplus, Cminus, Copp, Ci, RtoC. cbn. intros -> -> -> -> Q.
  assert (0 < vat w 1 * elfactor 0)%R by (now apply Rmult_lt_0_compat). lra.
Qed.

Lemma corner_fft gl : exists flm, forward_ gl corner 1 0 "mwss" "sov_fft" None true 0 = Ok flm /\ is_real (get flm [0; 0]).
Proof.
  unfold forward_. change (f_shape (Some 1) "mwss" None) with (Ok [2; 2]). cbn [bind].
  change (shape_is (shape corner) [2; 2]) with true. cbn [assert_ bind].
  change (0 <? 1) with true. change ((0 <=? 0) && true) with true. cbn [assert_ bind andb]. change (if negb (0 =? 0) then false else true) with true.
  destruct (prepare_ok gl "mwss" MWSS corner 1 0 0 None eq_refl ltac:(lia) ltac:(discriminate) ltac:(discriminate) eq_refl)
    as (f' & ths & w & -> & G & Hsh & Lw & Ew & HV). cbn [bind fname].
  change (streq "sov_fft" "direct") with false. change (streq "sov_fft" "sov") with false. change (streq "sov_fft" "sov_fft") with true. cbv iota.
  pose proof (go_n _ _ _ _ _ G) as Gn. pose proof (go_th _ _ _ _ _ G) as Gt.
  cbn [fname fgrid equi_grid gn gN gth gph gsh ge] in *.
  set (fr := mkArr (shape f') (fun ix => RtoC (Re (get f' ix)))).
  assert (RA : ring_analysis f' 1 "mwss" None true = ring_analysis fr 1 "mwss" None true) by reflexivity.
  destruct (equi_analysis_ok MWSS 1 None 3 true fr (mwss_theta 2)) as (ftm & Ef & Sf & Hf); try discriminate; try lia.
  { exact Hsh. }
  { intros. reflexivity. }
  unfold forward_sov_fft. change (scheme_name MWSS) with "mwss" in Ef. rewrite RA, Ef. cbn [bind]. change (is_hp "mwss") with false. cbv iota. cbn [bind].
  match goal with |- exists flm, enum ths ?B _ = _ /\ _ => set (body := B) end.
  assert (ST : forall t flm, 0 <= t < 3 -> shape flm = [1; 1] -> is_real (get flm [0; 0]) -> exists flm', body flm t (vat ths t) = Ok flm' /\ shape flm' = [1; 1] /\
    is_real (get flm' [0; 0])).
  { intros t flm Ht Hs Hr. unfold body. 
    change (el_range 0 0 1) with [0]. cbn [foldM]. change (- 0) with 0.
    destruct (slice_1 (vat ths t) true) as (d0 & E0 & R0); [rewrite Gt by lia; apply mwss_away; lia|]. rewrite E0. cbn [bind].
    rewrite vread_in by lia. cbn [bind]. change (1 - 1) with 0. rewrite R0. cbn [bind].
    change (zrange 1 (0 + 1)) with (@nil Z). cbn [foldM].
    change (m_offset "mwss") with 1. change (0 + 1) with 1. 
    rewrite aread_in by (rewrite Sf; cbn; lia). cbn [bind].
    set (z := (RtoC (vat w t * m1 0 * elfactor 0 * 1) * get ftm [t; 1])%C).
    assert (Rz : is_real z).
    { unfold z. specialize (Hf t 0 ltac:(cbn; lia) ltac:(lia) ltac:(lia)). cbn [phase_of mo_of] in Hf. change (0 + 1 - 1 + 1) with 1 in Hf.
      unfold at2 in Hf. rewrite Cconj_R, Cmult_1_r in Hf. rewrite Hf. unfold fts. cbn [equi_grid gN gph ge per_ring]. change (zrange 0 (2 * 1)) with [0; 1].
      cbn [suml fold_right]. replace (- (0 * equi_longitude MWSS 1 0))%R with 0%R by ring. replace (- (0 * equi_longitude MWSS 1 1))%R with 0%R by ring.
      rewrite cis_0. unfold fr. cbn [get]. unfold is_real, Im, Cmult, Cplus, RtoC. cbn. ring. }
    destruct (caplus_00 flm z Hs) as (f1 & F1 & S1 & G1). rewrite F1. cbn [bind foldM].
    exists f1. split; [reflexivity|]. split; [exact S1|]. rewrite G1. destruct (get flm [0; 0]) as [a a'], z as [b b'].
    unfold is_real, Im, Cplus in *. cbn in *. lra. }
  unfold enum. rewrite Gn. change (zrange 0 (2 * 1 + 1)) with [0; 1; 2]. cbn [foldM].
  destruct (ST 0 (zeros (RtoC 0) (flm_shape 1)) ltac:(lia) eq_refl eq_refl) as (f0 & -> & S0 & G0). cbn [bind].
  destruct (ST 1 f0 ltac:(lia) S0 G0) as (f1 & -> & S1 & G1). cbn [bind].
  destruct (ST 2 f1 ltac:(lia) S1 G1) as (f2 & -> & S2 & G2). cbn [bind].
  exists f2. split; [reflexivity|exact G2].
Qed.
