(** The kernels of the precomputed transforms hold the Wigner d-functions of their rings. *)
From Coq Require Import Reals ZifyBool Lra.
From Coquelicot Require Import Complex.
From Verif Require Import Lib.Py Lib.PyFacts Lib.Vec Lib.VecFacts Lib.Sums Lib.Cplx Lib.Arr Lib.ArrFacts Lib.MatFacts
  Model.Index Model.Samples Model.Grids Model.FFT Model.HealpixFFT Model.Turok Model.Risbo Model.Resampling Model.Quadrature
  Model.Spherical Model.Precompute
  Spec.SamplesSpec Spec.WignerSpec Spec.SphereSpec Spec.GridSpec Spec.HealpixFFTSpec Spec.SphericalSpec
  Proofs.SamplesProofs Proofs.GridProofs Proofs.TurokProofs Proofs.RisboProofs Proofs.SphereTheory Proofs.SphGrid
  Proofs.SphInverse Proofs.SphTop Proofs.SphForwardTop.
Open Scope string_scope.
Open Scope Z_scope.

(** ** Arrays with three axes *)
Definition is_arr3 {T} (a : ndarray T) (n l m : Z) (F : Z -> Z -> Z -> T) : Prop :=
  shape a = [n; l; m] /\ forall i j k, 0 <= i < n -> 0 <= j < l -> 0 <= k < m -> at3 a i j k = F i j k.
Lemma is_arr3_arr3 {T} n l m (F : Z -> Z -> Z -> T) : is_arr3 (arr3 n l m F) n l m F.
Proof. split; reflexivity. Qed.
Lemma is_arr3_ext {T} (a : ndarray T) n l m F G : is_arr3 a n l m F ->
  (forall i j k, 0 <= i < n -> 0 <= j < l -> 0 <= k < m -> F i j k = G i j k) -> is_arr3 a n l m G.
Proof. intros [H1 H2] E. split; [exact H1|]. intros. rewrite H2 by auto. auto. Qed.
Lemma is_arr3_dims {T} (a : ndarray T) n l m F : is_arr3 a n l m F -> dim0 a = n /\ dim1 a = l /\ dim2 a = m.
Proof. intros [H _]. unfold dim0, dim1, dim2. rewrite H. auto. Qed.
Lemma norm_in n i : 0 <= i < n -> norm_index n i = Some i.
Proof. intros. unfold norm_index. repeat zif. reflexivity. Qed.
Lemma cell_set_ok {T} (a : ndarray T) n l m F t el (v : vec T) : is_arr3 a n l m F -> 0 <= t < n -> 0 <= el < l -> vlen v = m ->
  exists a', cell_set a t el v = Ok a' /\
    is_arr3 a' n l m (fun i j k => if (i =? t) && (j =? el) then vat v k else F i j k).
Proof.
  intros H Ht Hl Hv. destruct (is_arr3_dims _ _ _ _ _ H) as (D0 & D1 & D2). unfold cell_set.
  rewrite D0, D1, D2, !norm_in by auto. replace (vlen v =? m) with true by lia. eexists. split; [reflexivity|].
  eapply is_arr3_ext; [apply is_arr3_arr3|]. intros i j k Hi Hj Hk. cbv beta. now rewrite (proj2 H).
Qed.
Lemma mid_set_ok {T} (a b : ndarray T) n l m F G el : is_arr3 a n l m F -> is_mat b n m G -> 0 <= el < l ->
  exists a', mid_set a el b = Ok a' /\ is_arr3 a' n l m (fun i j k => if j =? el then G i k else F i j k).
Proof.
  intros H Hb Hl. destruct (is_arr3_dims _ _ _ _ _ H) as (D0 & D1 & D2). unfold mid_set.
  rewrite D0, D1, D2, norm_in, (is_mat_dim0 _ _ _ _ Hb), (is_mat_dim1 _ _ _ _ Hb) by auto. rewrite !Z.eqb_refl. cbn [andb].
  eexists. split; [reflexivity|].
  eapply is_arr3_ext; [apply is_arr3_arr3|]. intros i j k Hi Hj Hk. cbv beta. now rewrite (proj2 H), (proj2 Hb).
Qed.
Lemma einsum_tlm_l_ok a n l m F (w : vec C) : is_arr3 a n l m F -> vlen w = l ->
  exists a', einsum_tlm_l a w = Ok a' /\ is_arr3 a' n l m (fun i j k => (F i j k * vat w j)%C).
Proof.
  intros H Hw. destruct (is_arr3_dims _ _ _ _ _ H) as (D0 & D1 & D2). unfold einsum_tlm_l. rewrite D0, D1, D2, Hw, Z.eqb_refl.
  eexists. split; [reflexivity|]. eapply is_arr3_ext; [apply is_arr3_arr3|]. intros i j k Hi Hj Hk. cbv beta. now rewrite (proj2 H).
Qed.
Lemma einsum_tlm_t_ok a n l m F (w : vec C) : is_arr3 a n l m F -> vlen w = n ->
  exists a', einsum_tlm_t a w = Ok a' /\ is_arr3 a' n l m (fun i j k => (F i j k * vat w i)%C).
Proof.
  intros H Hw. destruct (is_arr3_dims _ _ _ _ _ H) as (D0 & D1 & D2). unfold einsum_tlm_t. rewrite D0, D1, D2, Hw, Z.eqb_refl.
  eexists. split; [reflexivity|]. eapply is_arr3_ext; [apply is_arr3_arr3|]. intros i j k Hi Hj Hk. cbv beta. now rewrite (proj2 H).
Qed.
Lemma einsum_tlm_tm_ok a b n l m F G : is_arr3 a n l m F -> is_mat b n m G ->
  exists a', einsum_tlm_tm a b = Ok a' /\ is_arr3 a' n l m (fun i j k => (F i j k * G i k)%C).
Proof.
  intros H Hb. destruct (is_arr3_dims _ _ _ _ _ H) as (D0 & D1 & D2). unfold einsum_tlm_tm.
  rewrite D0, D1, D2, (is_mat_dim0 _ _ _ _ Hb), (is_mat_dim1 _ _ _ _ Hb), !Z.eqb_refl. cbn [andb].
  eexists. split; [reflexivity|]. eapply is_arr3_ext; [apply is_arr3_arr3|]. intros i j k Hi Hj Hk. cbv beta.
  now rewrite (proj2 H), (proj2 Hb).
Qed.
Lemma einsum_tlm_lm_ok k a n l m F G : is_arr3 k n l m F -> is_mat a l m G ->
  exists r, einsum_tlm_lm k a = Ok r /\ is_mat r n m (fun t c => csum (zrange 0 l) (fun el => (F t el c * G el c)%C)).
Proof.
  intros H Ha. destruct (is_arr3_dims _ _ _ _ _ H) as (D0 & D1 & D2). unfold einsum_tlm_lm.
  rewrite D0, D1, D2, (is_mat_dim0 _ _ _ _ Ha), (is_mat_dim1 _ _ _ _ Ha), !Z.eqb_refl. cbn [andb].
  eexists. split; [reflexivity|]. eapply is_mat_ext; [apply is_mat_mat|]. intros t c Ht Hc. cbv beta. apply cr_ext. intros el Hel.
  now rewrite (proj2 H), (proj2 Ha).
Qed.
Lemma einsum_tlm_tm_lm_ok k a n l m F G : is_arr3 k n l m F -> is_mat a n m G ->
  exists r, einsum_tlm_tm_lm k a = Ok r /\ is_mat r l m (fun el c => csum (zrange 0 n) (fun t => (F t el c * G t c)%C)).
Proof.
  intros H Ha. destruct (is_arr3_dims _ _ _ _ _ H) as (D0 & D1 & D2). unfold einsum_tlm_tm_lm.
  rewrite D0, D1, D2, (is_mat_dim0 _ _ _ _ Ha), (is_mat_dim1 _ _ _ _ Ha), !Z.eqb_refl. cbn [andb].
  eexists. split; [reflexivity|]. eapply is_mat_ext; [apply is_mat_mat|]. intros t c Ht Hc. cbv beta. apply cr_ext. intros el Hel.
  now rewrite (proj2 H), (proj2 Ha).
Qed.

(** ** The Turok recursion *)
Definition ms_of (L : Z) (reality : bool) : Z := if reality then L - 1 else 0.
Definition md_of (L : Z) (reality : bool) : Z := if reality then L else 2 * L - 1.
Lemma md_ms L reality : md_of L reality = 2 * L - 1 - ms_of L reality.
Proof. unfold md_of, ms_of. destruct reality; lia. Qed.
Lemma ms_range L reality : 1 <= L -> 0 <= ms_of L reality <= L - 1.
Proof. unfold md_of, ms_of. destruct reality; lia. Qed.

(** the value at order i + ms - (L - 1) *)
Definition dval (L spin ms : Z) (th : Z -> R) (t el i : Z) : R := wigner_d el (i + ms - (L - 1)) (- spin) (th t).

Lemma vslice_tail {A} (v : vec A) n s : vlen v = n -> 0 <= s <= n ->
  vlen (vslice v s n) = n - s /\ forall i, vat (vslice v s n) i = vat v (s + i).
Proof.
  intros Hv Hs. unfold vslice. cbn [vlen vat]. rewrite Hv. unfold slice_len, slice_lo, clamp. repeat zif.
  split; [lia|]. intros. f_equal. lia.
Qed.

Lemma kernel_turok_ok ths T L spin reality : 1 <= L -> vlen ths = T -> 0 <= T ->
  (forall t, 0 <= t < T -> turok_angle (vat ths t)) ->
  exists a, kernel_turok ths L spin reality (ms_of L reality) (md_of L reality) = Ok a /\
    is_arr3 a T L (md_of L reality) (fun t el i => RtoC (dval L spin (ms_of L reality) (vat ths) t el i * elfactor el)).
Proof.
  intros HL HT HT0 Hang. unfold kernel_turok, enum. rewrite HT.
  set (V := fun t el i => RtoC (dval L spin (ms_of L reality) (vat ths) t el i * elfactor el)).
  assert (V0 : forall t el i, el < Z.abs spin -> V t el i = RtoC 0).
  { intros. unfold V, dval. rewrite wigner_d_out by lia. now rewrite Rmult_0_l. }
  pose proof (ms_range L reality HL) as Hms. pose proof (md_ms L reality) as Hmd.
  set (md := md_of L reality) in *. set (ms := ms_of L reality) in *.
  destruct (foldM_inv (fun t a => is_arr3 a T L md (fun i j k => if i <? t then V i j k else RtoC 0))
    (fun dl t => foldM (fun dl el =>
      let* d := turok_slice (vat ths t) el L (- spin) reality in
      let v := vslice d ms (vlen d) in
      let* dl := cell_set dl t el (vmap RtoC v) in
      cell_set dl t el (vmap (fun x => RtoC (x * elfactor el)) v))
      (zrange (Z.abs spin) L) dl) 0 T (zeros (RtoC 0) [T; L; md])) as (a & E & HA).
  - lia.
  - split; [reflexivity|]. intros i j k Hi Hj Hk. cbv beta. now zif.
  - intros t a Ht Ha.
    destruct (foldM_inv' (fun el a => is_arr3 a T L md (fun i j k => if (i <? t) || ((i =? t) && (j <? el)) then V i j k else RtoC 0))
      (fun dl el =>
      let* d := turok_slice (vat ths t) el L (- spin) reality in
      let v := vslice d ms (vlen d) in
      let* dl := cell_set dl t el (vmap RtoC v) in
      cell_set dl t el (vmap (fun x => RtoC (x * elfactor el)) v)) (Z.abs spin) L a) as (a' & E' & HA').
    + apply (is_arr3_ext _ _ _ _ _ _ Ha). intros i j k Hi Hj Hk. cbv beta.
      destruct (Z.ltb_spec i t); cbn [orb]; [reflexivity|].
      destruct (Z.eqb_spec i t); cbn [andb]; [|reflexivity]. destruct (Z.ltb_spec j (Z.abs spin)); [|reflexivity].
      now rewrite V0.
    + intros el b Hel Hb.
      destruct (dl_ok (vat ths t) el L spin reality ltac:(lia) ltac:(lia) (Hang t Ht)) as (d & -> & Hd & Hv). cbn [bind]. cbv zeta.
      rewrite Hd. destruct (vslice_tail d (2 * L - 1) ms Hd ltac:(lia)) as (S1 & S2).
      destruct (cell_set_ok b T L md _ t el (vmap RtoC (vslice d ms (2 * L - 1))) Hb Ht ltac:(lia)) as (b1 & -> & Hb1).
      { cbn [vmap vlen]. rewrite S1. lia. }
      cbn [bind].
      destruct (cell_set_ok b1 T L md _ t el (vmap (fun x => RtoC (x * elfactor el)) (vslice d ms (2 * L - 1))) Hb1 Ht ltac:(lia)) as (b2 & -> & Hb2).
      { cbn [vmap vlen]. rewrite S1. lia. }
      exists b2. split; [reflexivity|]. apply (is_arr3_ext _ _ _ _ _ _ Hb2). intros i j k Hi Hj Hk. cbv beta.
      destruct (Z.eqb_spec i t); cbn [andb].
      * subst i. destruct (Z.eqb_spec j el).
        -- subst j. cbn [vmap vat]. rewrite S2. replace ((t <? t) || (el <? el + 1)) with true by lia.
           unfold V, dval. do 2 f_equal. replace (ms + k) with ((k + ms - (L - 1)) + L - 1) by lia.
           apply Hv; [lia|]. intros ->. unfold ms, ms_of. lia.
        -- replace (j <? el + 1) with (j <? el) by lia. reflexivity.
      * reflexivity.
    + exists a'. split; [exact E'|]. apply (is_arr3_ext _ _ _ _ _ _ HA'). intros i j k Hi Hj Hk. cbv beta.
      destruct (Z.ltb_spec i t); cbn [orb]; [now zif|].
      destruct (Z.eqb_spec i t); cbn [andb]; [|now zif]. replace (i <? t + 1) with true by lia.
      now zif.
  - exists a. split; [exact E|]. apply (is_arr3_ext _ _ _ _ _ _ HA). intros. cbv beta. now zif.
Qed.

(** ** The Risbo recursion at each ring *)
Lemma risbo_planes_ok b L l betas dls : 0 <= l < L ->
  Forall2 (fun beta dl => if l =? 0 then arr_eq dl (zeros 0%R [2 * L - 1; 2 * L - 1]) else holds L (l - 1) beta dl) betas dls ->
  exists out, risbo_planes b dls betas L l = Ok out /\ Forall2 (holds L l) betas out.
Proof.
  intros Hl H. destruct b; cbn [risbo_planes]; [now apply vec_step|].
  induction H as [|beta dl betas dls H1 H IH]; [exists []; auto|].
  destruct (jax_step_ok L beta l dl Hl H1) as (a & E & Ha). destruct IH as (out & E' & Ho).
  exists (a :: out). rewrite E. cbn [bind]. rewrite E'. cbn [bind]. auto.
Qed.
Lemma Forall2_nth {X Y} (P : X -> Y -> Prop) l k dx dy i : Forall2 P l k -> (i < List.length l)%nat -> P (nth i l dx) (nth i k dy).
Proof.
  intros H. revert i. induction H as [|x y l k H1 H IH]; intros i Hi; cbn [List.length] in Hi; [lia|].
  destruct i; cbn [nth]; [exact H1|]. apply IH. lia.
Qed.
Lemma Forall2_len {X Y} (P : X -> Y -> Prop) l k : Forall2 P l k -> List.length l = List.length k.
Proof. intros H. induction H; cbn; congruence. Qed.
Lemma zrange_length n : 0 <= n -> Z.of_nat (List.length (zrange 0 n)) = n.
Proof. intros. unfold zrange. rewrite map_length, seq_length. lia. Qed.
Lemma zrange_nth n i d : 0 <= i < n -> nth (Z.to_nat i) (zrange 0 n) d = i.
Proof.
  intros. unfold zrange. rewrite (nth_indep _ d ((fun k => 0 + Z.of_nat k) 0%nat)) by (rewrite map_length, seq_length; lia).
  rewrite (map_nth (fun k => 0 + Z.of_nat k)), seq_nth by lia. lia.
Qed.
Lemma Forall2_map_const {X Y} (P : X -> Y -> Prop) (y : Y) l : (forall x, P x y) -> Forall2 P l (map (fun _ => y) l).
Proof. intros. induction l; cbn; auto. Qed.
Lemma planes_col_ok dls (ths : vec R) T L l ms spin : 0 <= l < L -> 0 <= T -> vlen ths = T -> 0 <= ms <= L - 1 -> Z.abs spin < L ->
  Forall2 (holds L l) (map (vat ths) (zrange 0 T)) dls ->
  exists c, planes_col dls L ms (L - 1 - spin) = Ok c /\
    is_mat c T (2 * L - 1 - ms) (fun t i => RtoC (dval L spin ms (vat ths) t l i)).
Proof.
  intros Hl HT HV Hms Hs H. unfold planes_col. rewrite norm_in by lia. eexists. split; [reflexivity|].
  assert (EL : Z.of_nat (List.length dls) = T).
  { rewrite <- (Forall2_len _ _ _ H), map_length. apply zrange_length. lia. }
  rewrite EL. replace (slice_len (2 * L - 1) ms (2 * L - 1)) with (2 * L - 1 - ms)
    by (unfold slice_len, slice_lo, clamp; repeat zif; lia).
  eapply is_mat_ext; [apply is_mat_mat|]. intros t i Ht Hi. cbv beta. f_equal. unfold at2.
  replace (slice_lo (2 * L - 1) ms) with ms by (unfold slice_lo, clamp; repeat zif; lia).
  pose proof (Forall2_nth _ _ _ 0%R (zeros 0%R []) (Z.to_nat t) H) as P. rewrite map_length in P.
  pose proof (zrange_length T HT). specialize (P ltac:(lia)). destruct P as [_ P].
  rewrite (nth_indep _ 0%R (vat ths 0)) in P by (rewrite map_length; lia). rewrite map_nth, zrange_nth in P by lia.
  unfold dval. rewrite <- (P (i + ms - (L - 1)) (- spin)) by lia.
  replace (i + ms - (L - 1) + L - 1) with (ms + i) by lia. replace (- spin + L - 1) with (L - 1 - spin) by lia. reflexivity.
Qed.

Lemma kernel_direct_ok b ths T L spin reality : 1 <= L -> vlen ths = T -> 0 <= T -> Z.abs spin < L ->
  exists a, kernel_risbo_direct b ths L spin (ms_of L reality) (md_of L reality) = Ok a /\
    is_arr3 a T L (md_of L reality) (fun t el i => RtoC (dval L spin (ms_of L reality) (vat ths) t el i)).
Proof.
  intros HL HV HT Hs. unfold kernel_risbo_direct. rewrite HV. pose proof (ms_range L reality HL) as Hms. pose proof (md_ms L reality) as Hmd.
  set (md := md_of L reality) in *. set (ms := ms_of L reality) in *. cbv zeta.
  set (betas := map (vat ths) (zrange 0 T)).
  set (V := fun t el i => RtoC (dval L spin ms (vat ths) t el i)).
  destruct (foldM_inv (fun el st =>
      Forall2 (fun beta dl => if el =? 0 then arr_eq dl (zeros 0%R [2 * L - 1; 2 * L - 1]) else holds L (el - 1) beta dl) betas (fst st) /\
      is_arr3 (snd st) T L md (fun t j k => if j <? el then V t j k else RtoC 0))
    (fun st el =>
      let* delta := risbo_planes b (fst st) betas L el in
      let* c := planes_col delta L ms (L - 1 - spin) in
      let* dl := mid_set (snd st) el c in
      Ok (delta, dl)) 0 L (map (fun _ => zeros 0%R [2 * L - 1; 2 * L - 1]) betas, zeros (RtoC 0) [T; L; md])) as (st & E & H1 & H2).
  - lia.
  - cbn [fst snd]. split.
    + apply Forall2_map_const. intros. cbn [Z.eqb]. apply arr_eq_refl.
    + split; [reflexivity|]. intros. cbv beta. now zif.
  - intros el [dls dl] Hel [H1 H2]. cbn [fst snd] in *.
    destruct (risbo_planes_ok b L el betas dls Hel H1) as (out & -> & Ho). cbn [bind].
    destruct (planes_col_ok out ths T L el ms spin Hel HT HV Hms Hs Ho) as (c & -> & Hc). cbn [bind]. rewrite <- Hmd in Hc.
    destruct (mid_set_ok dl c T L md _ _ el H2 Hc Hel) as (dl' & -> & Hd). cbn [bind]. eexists. split; [reflexivity|]. cbn [fst snd].
    split.
    + replace (el + 1 =? 0) with false by lia. replace (el + 1 - 1) with el by lia. exact Ho.
    + apply (is_arr3_ext _ _ _ _ _ _ Hd). intros i j k Hi Hj Hk. cbv beta.
      destruct (Z.eqb_spec j el); [subst j; now zif|]. replace (j <? el + 1) with (j <? el) by lia. reflexivity.
  - rewrite E. cbn [bind]. exists (snd st). split; [reflexivity|]. apply (is_arr3_ext _ _ _ _ _ _ H2).
    intros. cbv beta. now zif.
Qed.

(** ** The Fourier expansion on equidistant rings *)
Lemma Cconj_wfc l m n k : Z.abs m <= l -> Z.abs n <= l -> Z.abs k <= l -> Cconj (wfc l m n k) = wfc l m n (- k).
Proof.
  intros. rewrite wfc_flip by auto. unfold wfc. rewrite Cconj_mult, Cconj_R, cis_conj, Cmult_assoc. f_equal.
  replace (- (IZR (n - m) * (PI / 2)))%R with (IZR (n - m) * (PI / 2) + IZR (m - n) * PI)%R.
  - rewrite cis_plus, cis_kPI, Cmult_comm, sgn_sub, sgn_add. reflexivity.
  - rewrite !minus_IZR. field.
Qed.
Definition wterm (l m n : Z) (x : R) (k : Z) : C := (wfc l m n k * cis (IZR k * x))%C.
Lemma wterm_neg l m n x k : Z.abs m <= l -> Z.abs n <= l -> Z.abs k <= l -> wterm l m n x (- k) = Cconj (wterm l m n x k).
Proof.
  intros. unfold wterm. rewrite Cconj_mult, Cconj_wfc, cis_conj by auto. do 2 f_equal. rewrite opp_IZR. ring.
Qed.
Lemma wigner_half_sum l m n x N : Z.abs m <= l -> Z.abs n <= l -> l < N ->
  wigner_d l m n x = (Re (wterm l m n x 0) + 2 * rsum (zrange 1 N) (fun k => if (k <=? l)%Z then Re (wterm l m n x k) else 0))%R.
Proof.
  intros Hm Hn HN.
  assert (E : RtoC (wigner_d l m n x) = RtoC (Re (wterm l m n x 0) + 2 * rsum (zrange 1 (l + 1)) (fun k => Re (wterm l m n x k)))).
  { rewrite wigner_fourier by auto. change (csum (zrange (- l) (l + 1)) (wterm l m n x) = RtoC (Re (wterm l m n x 0) + 2 * rsum (zrange 1 (l + 1)) (fun k => Re (wterm l m n x k)))).
    rewrite fold_pairs by (try lia; intros; apply wterm_neg; lia).
    rewrite RtoC_plus. f_equal.
    - symmetry. apply Re_R. rewrite <- wterm_neg by lia. reflexivity.
    - rewrite (cr_ext 1 (l + 1) _ (fun k => RtoC (2 * Re (wterm l m n x k)))) by (intros; apply plus_conj).
      rewrite csum_RtoC. f_equal. apply rs_scal_l. }
  apply RtoC_inj in E. rewrite E. do 2 f_equal.
  rewrite (rr_split 1 (l + 1) N) by lia. rewrite (rr_0 (l + 1) N), Rplus_0_r by (intros; now zif).
  apply rr_ext. intros. now zif.
Qed.

Lemma risbo_plane_ok b L l dl : 0 <= l < L ->
  (if l =? 0 then arr_eq dl (zeros 0%R [2 * L - 1; 2 * L - 1]) else holds L (l - 1) (PI / 2) dl) ->
  exists a, risbo_plane b dl (PI / 2) L l = Ok a /\ holds L l (PI / 2) a.
Proof.
  intros Hl H. destruct b; cbn [risbo_plane]; [|now apply jax_step_ok].
  unfold risbo_full. rewrite args_ok.
  - cbn [bind]. now apply step_ok.
  - exact Hl.
  - pose proof PI_RGT_0. lra.
  - destruct (l =? 0); [exact (proj1 H)|exact (proj1 H)].
Qed.

(** samples n of the circle with the rings of the first half among them *)
Record equidistant (L n T : Z) (th : Z -> R) : Prop := {
  eq_pos : 0 < n; eq_le : 0 < T <= n; eq_L : L <= (n + 1) / 2; eq_even : Z.even n = true -> L <= n / 2;
  eq_th : forall t, 0 <= t < T -> th t = (th 0%Z + 2 * PI * IZR t / IZR n)%R }.

Definition xterm (L l spin m : Z) (th0 : R) (k : Z) : C :=
  (RtoC (wigner_d l k m (PI / 2)) * RtoC (wigner_d l k (- spin) (PI / 2)) * ipow (- spin - m) * cis (IZR k * th0))%C.
Lemma xterm_wterm L l spin m th0 n t k : 0 < n ->
  (xterm L l spin m th0 k * root n (k * t))%C = wterm l m (- spin) (th0 + 2 * PI * IZR t / IZR n) k.
Proof.
  intros Hn. unfold xterm, wterm, wfc, root, ipow. rewrite RtoC_mult.
  replace (IZR k * (th0 + 2 * PI * IZR t / IZR n))%R with (IZR k * th0 + 2 * PI * IZR (k * t) / IZR n)%R.
  - rewrite cis_plus. ring.
  - rewrite mult_IZR. field. apply not_0_IZR. lia.
Qed.
Lemma wterm_out l m n x k : l < Z.abs k \/ l < Z.abs m \/ l < Z.abs n -> wterm l m n x k = RtoC 0.
Proof.
  intros H. unfold wterm, wfc.
  replace (wigner_d l k m (PI / 2) * wigner_d l k n (PI / 2))%R with 0%R; [ring|].
  destruct (Z_lt_dec l (Z.abs k)); [rewrite wigner_d_out by lia; ring|].
  destruct (Z_lt_dec l (Z.abs m)); [rewrite wigner_d_out by lia; ring|].
  rewrite (wigner_d_out l k n) by lia. ring.
Qed.
Lemma fourier_value L l spin m n T th t : 0 <= l < L -> equidistant L n T th -> 0 <= t < T ->
  vat (irfft_fwd (mkVec L (xterm L l spin m (th 0%Z))) n) t = RtoC (wigner_d l m (- spin) (th t)).
Proof.
  intros Hl [E1 E2 E3 E4 E5] Ht. cbn [irfft_fwd vat vlen]. f_equal.
  assert (XT : forall k, (xterm L l spin m (th 0%Z) k * root n (k * t))%C = wterm l m (- spin) (th t) k).
  { intros k. rewrite xterm_wterm by auto. now rewrite <- E5. }
  replace (if Z.even n then (Re (if (n / 2 <? L)%Z then xterm L l spin m (th 0%Z) (n / 2) else RtoC 0) * sgn t)%R else 0%R) with 0%R.
  2: { destruct (Z.even n); [|reflexivity]. replace (n / 2 <? L) with false by (specialize (E4 eq_refl); lia). cbn. ring. }
  rewrite Rplus_0_r. replace (0 <? L) with true by lia.
  replace (xterm L l spin m (th 0%Z) 0) with (wterm l m (- spin) (th t) 0).
  2: { rewrite <- XT. rewrite Z.mul_0_l, root_0. ring. }
  rewrite (rr_ext 1 ((n + 1) / 2) _ (fun k => if k <=? l then Re (wterm l m (- spin) (th t) k) else 0%R)).
  2: { intros k Hk. destruct (Z.ltb_spec k L).
       - rewrite XT. destruct (Z.leb_spec k l); [reflexivity|]. rewrite wterm_out by lia. reflexivity.
       - replace (k <=? l) with false by lia. rewrite Cmult_0_l. reflexivity. }
  destruct (Z_le_dec (Z.abs m) l); [destruct (Z_le_dec (Z.abs spin) l)|].
  - symmetry. apply wigner_half_sum; lia.
  - rewrite wigner_d_out by lia. rewrite wterm_out by lia. rewrite rr_0; [cbn; ring|].
    intros k Hk. rewrite wterm_out by lia. destruct (k <=? l); reflexivity.
  - rewrite wigner_d_out by lia. rewrite wterm_out by lia. rewrite rr_0; [cbn; ring|].
    intros k Hk. rewrite wterm_out by lia. destruct (k <=? l); reflexivity.
Qed.
Lemma fourier_slice_ok delta th0 L l spin reality : 0 <= l < L -> Z.abs spin < L -> holds L l (PI / 2) delta ->
  exists a, fourier_slice delta th0 L spin (ms_of L reality) (md_of L reality) = Ok a /\
    is_mat a (2 * L - 1) (md_of L reality) (fun r i => xterm L l spin (i + ms_of L reality - (L - 1)) th0 (r - (L - 1))).
Proof.
  intros Hl Hs [_ H]. unfold fourier_slice. rewrite norm_in by lia. eexists. split; [reflexivity|].
  pose proof (ms_range L reality ltac:(lia)) as Hms. pose proof (md_ms L reality) as Hmd.
  set (md := md_of L reality) in *. set (ms := ms_of L reality) in *. clearbody ms md.
  eapply is_mat_ext; [apply is_mat_mat|]. intros r i Hr Hi. unfold xterm. unfold at2 at 1. cbn [get mat nth].
  rewrite <- (H (r - (L - 1)) (i + ms - (L - 1))), <- (H (r - (L - 1)) (- spin)) by lia. unfold at2.
  replace (r - (L - 1) + L - 1) with r by lia. replace (i + ms - (L - 1) + L - 1) with (ms + i) by lia.
  replace (- spin + L - 1) with (L - 1 - spin) by lia. replace (i + ms - (L - 1)) with (ms + i - (L - 1)) by lia. reflexivity.
Qed.

Lemma kernel_fourier_ok b name ths T L spin reality : 1 <= L -> vlen ths = T -> Z.abs spin < L ->
  equidistant L (kernel_nsamps name T) T (vat ths) ->
  exists a, kernel_risbo_fourier b name ths L spin (ms_of L reality) (md_of L reality) = Ok a /\
    is_arr3 a T L (md_of L reality) (fun t el i => RtoC (dval L spin (ms_of L reality) (vat ths) t el i)).
Proof.
  intros HL HV Hs EQ. unfold kernel_risbo_fourier. rewrite HV. pose proof (ms_range L reality HL) as Hms. pose proof (md_ms L reality) as Hmd.
  assert (FS := fun delta th0 l => fourier_slice_ok delta th0 L l spin reality).
  set (md := md_of L reality) in *. set (ms := ms_of L reality) in *. cbv zeta.
  set (n := kernel_nsamps name T) in *. pose proof (eq_le _ _ _ _ EQ) as HT.
  set (V := fun t el i => RtoC (dval L spin ms (vat ths) t el i)).
  destruct (foldM_inv (fun el st =>
      (if el =? 0 then arr_eq (fst st) (zeros 0%R [2 * L - 1; 2 * L - 1]) else holds L (el - 1) (PI / 2) (fst st)) /\
      is_arr3 (snd st) T L md (fun t j k => if j <? el then V t j k else RtoC 0))
    (fun st el =>
      let* delta := risbo_plane b (fst st) (PI / 2) L el in
      let* th0 := vread ths 0 in
      let* temp := fourier_slice delta th0 L spin ms md in
      let* dl := mid_set (snd st) el (irfft0 (slice2 temp (L - 1) (dim0 temp) 0 (dim1 temp)) n T) in
      Ok (delta, dl)) 0 L (zeros 0%R [2 * L - 1; 2 * L - 1], zeros (RtoC 0) [T; L; md])) as (st & E & H1 & H2).
  - lia.
  - cbn [fst snd]. split.
    + cbn [Z.eqb]. apply arr_eq_refl.
    + split; [reflexivity|]. intros. cbv beta. now zif.
  - intros el [dls dl] Hel [H1 H2]. cbn [fst snd] in *.
    destruct (risbo_plane_ok b L el dls Hel H1) as (delta & -> & Ho). cbn [bind].
    assert (RD : vread ths 0 = Ok (vat ths 0)) by (unfold vread; rewrite HV, norm_in by lia; reflexivity).
    rewrite RD. cbn [bind].
    destruct (FS delta (vat ths 0) el Hel Hs Ho) as (temp & -> & Ht). cbn [bind].
    assert (M1 := MatFacts.slice2_ok _ _ _ _ (L - 1) (2 * L - 1) 0 md Ht ltac:(lia) ltac:(lia) ltac:(lia) ltac:(lia) ltac:(lia) ltac:(lia)).
    rewrite (is_mat_dim0 _ _ _ _ Ht), (is_mat_dim1 _ _ _ _ Ht).
    replace (2 * L - 1 - (L - 1)) with L in M1 by lia. replace (md - 0) with md in M1 by lia.
    assert (M2 : is_mat (map_cols (fun v => irfft_fwd v n) (slice2 temp (L - 1) (2 * L - 1) 0 md)) n md
      (fun t i => vat (irfft_fwd (mkVec L (xterm L el spin (i + ms - (L - 1)) (vat ths 0))) n) t)).
    { eapply map_cols_ok; [exact M1|apply vext_irfft|reflexivity| |lia]. intros r c Hr Hc. cbv beta.
      assert (VE : veq (mkVec L (fun r => xterm L el spin (0 + c + ms - (L - 1)) (vat ths 0) (L - 1 + r - (L - 1))))
                       (mkVec L (xterm L el spin (c + ms - (L - 1)) (vat ths 0)))).
      { split; [reflexivity|]. cbn [vat]. intros i _. f_equal; lia. }
      destruct (vext_irfft n _ _ VE) as [_ VV]. apply VV. exact Hr. }
    assert (M3 := MatFacts.slice2_ok _ _ _ _ 0 T 0 md M2 ltac:(lia) ltac:(lia) ltac:(lia) ltac:(lia) ltac:(lia) ltac:(lia)).
    replace (T - 0) with T in M3 by lia. replace (md - 0) with md in M3 by lia.
    assert (M4 : is_mat (irfft0 (slice2 temp (L - 1) (2 * L - 1) 0 md) n T) T md (fun t i => V t el i)).
    { unfold irfft0. cbv zeta. rewrite (is_mat_dim1 _ _ _ _ M2). apply (is_mat_ext _ _ _ _ _ M3). intros t i Ht' Hi. cbv beta.
      rewrite !Z.add_0_l. unfold V, dval. now apply (fourier_value L el spin _ n T). }
    destruct (mid_set_ok dl _ T L md _ _ el H2 M4 Hel) as (dl' & -> & Hd). cbn [bind]. eexists. split; [reflexivity|]. cbn [fst snd].
    split.
    + replace (el + 1 =? 0) with false by lia. replace (el + 1 - 1) with el by lia. exact Ho.
    + apply (is_arr3_ext _ _ _ _ _ _ Hd). intros i j k Hi Hj Hk. cbv beta.
      destruct (Z.eqb_spec j el); [subst j; now zif|]. replace (j <? el + 1) with (j <? el) by lia. reflexivity.
  - rewrite E. cbn [bind]. exists (snd st). split; [reflexivity|]. apply (is_arr3_ext _ _ _ _ _ _ H2).
    intros. cbv beta. now zif.
Qed.
