(** The kernel of the JAX transforms that uses the Price & McEwen recursion. *)
From Coq Require Import Reals ZifyBool Lra.
From Coquelicot Require Import Complex.
From Verif Require Import Lib.Py Lib.PyFacts Lib.Vec Lib.VecFacts Lib.Sums Lib.Cplx Lib.Arr Lib.ArrFacts Lib.MatFacts Lib.Ext Lib.ExtFacts
  Model.Index Model.Samples Model.Grids Model.FFT Model.HealpixFFT Model.Turok Model.Risbo Model.Resampling Model.Quadrature
  Model.Spherical Model.PriceMcEwen Model.OTF Model.PMSlices Model.Precompute
  Spec.SamplesSpec Spec.WignerSpec Spec.SphereSpec Spec.GridSpec Spec.HealpixFFTSpec Spec.SphericalSpec Spec.QuadSpec Spec.OTFSpec Spec.PrecomputeSpec
  Proofs.SamplesProofs Proofs.GridProofs Proofs.TurokProofs Proofs.SphGrid
  Proofs.SphInverse Proofs.SphTop Proofs.SphForward Proofs.SphForwardTop Proofs.SphFacts Proofs.PrecomputeKernel Proofs.PrecomputeSph
  Proofs.PMPre Proofs.PMHalf Proofs.PMSlicesProofs.
Open Scope string_scope.
Open Scope Z_scope.

Lemma pole_rows_ok {T} (zero : T) (a : ndarray T) n l m F r r' c c' v : is_arr3 a n l m F -> norm_index n r = Some r' -> norm_index m c = Some c' ->
  exists a', pole_rows zero a r c v = Ok a' /\
    is_arr3 a' n l m (fun i j k => if i =? r' then if k =? c' then v j else zero else F i j k).
Proof.
  intros H Hr Hc. destruct (is_arr3_dims _ _ _ _ _ H) as (D0 & D1 & D2). unfold pole_rows. rewrite D0, D1, D2, Hr, Hc.
  eexists. split; [reflexivity|]. eapply is_arr3_ext; [apply is_arr3_arr3|]. intros i j k Hi Hj Hk. cbv beta. now rewrite (proj2 H).
Qed.
Lemma finite3_ok (a : ndarray ext) n l m F G : is_arr3 a n l m F ->
  (forall i j k, 0 <= i < n -> 0 <= j < l -> 0 <= k < m -> F i j k = Fin (G i j k)) ->
  exists b, finite3 a = Ok b /\ is_arr3 b n l m (fun i j k => RtoC (G i j k)).
Proof.
  intros H E. destruct (is_arr3_dims _ _ _ _ _ H) as (D0 & D1 & D2). unfold finite3. rewrite D0, D1, D2.
  match goal with |- context [if ?c then _ else _] => replace c with true end.
  - eexists. split; [reflexivity|]. eapply is_arr3_ext; [apply is_arr3_arr3|]. intros i j k Hi Hj Hk. cbv beta.
    rewrite (proj2 H), E by auto. reflexivity.
  - symmetry. apply forallb_forall. intros i Hi. apply in_zrange in Hi. apply forallb_forall. intros j Hj. apply in_zrange in Hj.
    apply forallb_forall. intros k Hk. apply in_zrange in Hk. rewrite (proj2 H), E by lia. reflexivity.
Qed.

Definition clean (x : ext) : ext := if is_nan x then Fin 0 else x.
Lemma clean_tame x : tame x -> exists r, clean x = Fin r.
Proof. destruct x; cbn; intros H; try contradiction; eauto. Qed.

(** the rows after the poles are set *)
Definition pole_val (L spin : Z) (x : R) (el m : Z) : ext :=
  if Req_EM_T x 0 then if m =? L - 1 - spin then Fin 1 else Fin 0 else if m =? L - 1 + spin then Fin (m1 (el - spin)) else Fin 0.

Lemma kernel_price_mcewen_ok th ths name s L spin o forward reality T : 2 <= L -> Z.abs spin < L -> denotes name s ->
  vlen ths = T -> 1 <= T -> (s = MWSS -> 2 <= T) ->
  (forall t, 0 <= t < T -> usable_ring s T L 0 spin (vat ths) t) ->
  exists a, kernel_price_mcewen th ths L spin name o forward (ms_of L reality) = Ok a /\
    is_arr3 a T L (md_of L reality) (fun t el i => RtoC (dval L spin (ms_of L reality) (ring_angle s T (vat ths)) t el i)).
Proof.
  intros HL Hs Hd HT T1 T2 Hu. unfold kernel_price_mcewen.
  destruct (slices_ok th ths L spin name forward o HL Hs) as (dl & E & HV & HR & _ & TM). unfold plane in *. rewrite E. cbn [bind]. rewrite HT, HV.
  match goal with |- context [arr3 T L (2 * L - 1) ?f] => set (F0 := f) end.
  assert (H0 := is_arr3_arr3 T L (2 * L - 1) F0). unfold denotes in Hd. rewrite Hd.
  assert (LS : norm_index T (-1) = Some (T - 1)).
  { unfold norm_index. destruct (Z.leb_spec 0 (-1)); [lia|]. cbn [andb]. destruct (Z.leb_spec (- T) (-1)); [|lia]. change (-1 <? 0) with true. cbn [andb]. f_equal. lia. }
  assert (PR : exists d1 d2 G, (if streq (scheme_name s) "mwss" then pole_rows (Fin 0) (arr3 T L (2 * L - 1) F0) 0 (L - 1 - spin) (fun _ => Fin 1) else Ok (arr3 T L (2 * L - 1) F0)) = Ok d1 /\
    (if str_in (scheme_name s) ["mw"; "mwss"] then pole_rows (Fin 0) d1 (-1) (L - 1 + spin) (fun el => Fin (m1 (el - spin))) else Ok d1) = Ok d2 /\
    is_arr3 d2 T L (2 * L - 1) G /\ forall t l m, 0 <= t < T ->
      G t l m = match pole_angle s T t with Some x => pole_val L spin x l m | None => F0 t l m end).
  { destruct (pole_rows_ok (Fin 0) _ _ _ _ _ 0 0 (L - 1 - spin) (L - 1 - spin) (fun _ => Fin 1) H0 ltac:(apply norm_in; lia) ltac:(apply norm_in; lia)) as (dn & En & Hn).
    assert (PV : forall el m, pole_val L spin PI el m = if m =? L - 1 + spin then Fin (m1 (el - spin)) else Fin 0).
    { intros. unfold pole_val. pose proof PI_RGT_0. destruct (Req_EM_T PI 0); [lra|reflexivity]. }
    assert (PV0 : forall el m, pole_val L spin 0 el m = if m =? L - 1 - spin then Fin 1 else Fin 0).
    { intros. unfold pole_val. destruct (Req_EM_T 0 0); [reflexivity|lra]. }
    destruct s.
    - destruct (pole_rows_ok (Fin 0) _ _ _ _ _ (-1) (T - 1) (L - 1 + spin) (L - 1 + spin) (fun el => Fin (m1 (el - spin))) H0 LS ltac:(apply norm_in; lia)) as (ds & Es & Hs').
      exists (arr3 T L (2 * L - 1) F0), ds. eexists. split; [reflexivity|]. split; [exact Es|]. split; [exact Hs'|].
      intros t l m Ht. cbn [pole_angle]. destruct (t =? T - 1); [now rewrite PV|reflexivity].
    - destruct (pole_rows_ok (Fin 0) _ _ _ _ _ (-1) (T - 1) (L - 1 + spin) (L - 1 + spin) (fun el => Fin (m1 (el - spin))) Hn LS ltac:(apply norm_in; lia)) as (ds & Es & Hs').
      exists dn, ds. eexists. split; [exact En|]. split; [exact Es|]. split; [exact Hs'|].
      intros t l m Ht. cbn [pole_angle]. specialize (T2 eq_refl). destruct (Z.eqb_spec t (T - 1)), (Z.eqb_spec t 0); try lia;
        [now rewrite PV|now rewrite PV0|reflexivity].
    - exists (arr3 T L (2 * L - 1) F0), (arr3 T L (2 * L - 1) F0), F0. repeat split; auto.
    - exists (arr3 T L (2 * L - 1) F0), (arr3 T L (2 * L - 1) F0), F0. repeat split; auto.
    - exists (arr3 T L (2 * L - 1) F0), (arr3 T L (2 * L - 1) F0), F0. repeat split; auto. }
  destruct PR as (d1 & d2 & G & -> & E2 & H2 & HG). cbn [bind]. rewrite E2. cbn [bind]. clear E2.
  destruct (is_arr3_dims _ _ _ _ _ H2) as (D0 & D1 & D2). rewrite D0, D1, D2. cbn [dim0 dim1 dim2 shape arr3].
  assert (Hms := ms_range L reality ltac:(lia)). assert (Hmd := md_ms L reality).
  set (ms := ms_of L reality) in *. set (md := md_of L reality) in *.
  assert (H3 := is_arr3_arr3 T L (2 * L - 1) (fun t l m => if l <? slice_lo L (Z.abs spin) then emul (at3 d2 t l m) (Fin 0) else at3 d2 t l m)).
  match type of H3 with is_arr3 ?a _ _ _ _ => set (d3 := a) in *; clearbody d3 end.
  destruct (is_arr3_dims _ _ _ _ _ H3) as (D0' & D1' & D2'). rewrite D0', D1', D2'. rewrite slice_lo_in in * by lia. rewrite slice_len_in by lia.
  destruct (finite3_ok (arr3 T L (2 * L - 1 - ms) (fun t l m => at3 d3 t l (ms + m))) T L md
    (fun t l i => if l <? Z.abs spin then emul (G t l (ms + i)) (Fin 0) else G t l (ms + i))
    (dval L spin ms (ring_angle s T (vat ths)))) as (b & Eb & Hb).
  - rewrite Hmd. eapply is_arr3_ext; [apply is_arr3_arr3|]. intros t l i Ht Hl Hi. cbv beta. rewrite (proj2 H3), (proj2 H2) by lia. reflexivity.
  - intros t l i Ht Hl Hi. unfold dval. rewrite HG by auto. unfold ring_angle. destruct (pole_angle s T t) as [x|] eqn:EP.
    + assert (x = 0 \/ x = PI)%R as [-> | ->].
      { unfold pole_angle in EP. destruct s; try discriminate; repeat (destruct (_ =? _) in EP); inversion EP; auto. }
      * unfold pole_val. destruct (Req_EM_T 0 0); [|lra]. destruct (Z.ltb_spec l (Z.abs spin)).
        -- rewrite wig_out by lia. destruct (ms + i =? _); cbn [emul]; f_equal; ring.
        -- destruct (Z_le_gt_dec (Z.abs (i + ms - (L - 1))) l).
           ++ rewrite wig_0 by lia. destruct (Z.eqb_spec (ms + i) (L - 1 - spin)), (Z.eqb_spec (i + ms - (L - 1)) (- spin)); try lia; reflexivity.
           ++ rewrite wig_out by lia. destruct (Z.eqb_spec (ms + i) (L - 1 - spin)); [lia|reflexivity].
      * unfold pole_val. pose proof PI_RGT_0. destruct (Req_EM_T PI 0); [lra|]. destruct (Z.ltb_spec l (Z.abs spin)).
        -- rewrite wig_out by lia. destruct (ms + i =? _); cbn [emul]; f_equal; ring.
        -- destruct (Z_le_gt_dec (Z.abs (i + ms - (L - 1))) l).
           ++ rewrite wig_PI by lia. destruct (Z.eqb_spec (ms + i) (L - 1 + spin)), (Z.eqb_spec (i + ms - (L - 1)) (- - spin)); try lia; reflexivity.
           ++ rewrite wig_out by lia. destruct (Z.eqb_spec (ms + i) (L - 1 + spin)); [lia|reflexivity].
    + assert (RG := Hu t Ht EP). destruct RG as [Hb0 RG]. subst F0. cbn beta zeta. destruct (Z.ltb_spec l (Z.abs spin)).
      * rewrite wig_out by lia. destruct (clean_tame _ (TM (ms + i) t l Hb0)) as (r & Er). unfold clean in Er. rewrite Er. cbn [emul]. f_equal. ring.
      * rewrite (HR (ms + i)) by (try split; auto; lia). cbn [is_nan]. rewrite (Z.add_comm ms i).
        apply (HR (i + ms)); try split; auto; lia.
  - exists b. split; [exact Eb|exact Hb].
Qed.
