(** The latitudinal steps as they are called, with the rings at the poles. *)
From Coq Require Import Reals Lra Lia ZifyBool.
From Coquelicot Require Import Complex.
From Verif Require Import Lib.Py Lib.PyFacts Lib.Sums Lib.Cplx Lib.Vec Lib.VecFacts Lib.Arr Lib.MatFacts Lib.Ext Lib.ExtFacts
  Spec.CallSpec.
From Verif Require Import Model.Index Model.Samples Model.Grids Model.Turok Model.Spherical Model.PriceMcEwen Model.OTF
  Spec.WignerSpec Spec.SamplesSpec Spec.OTFSpec Proofs.SamplesProofs Proofs.TurokProofs Proofs.PMPre Proofs.PMHalf Proofs.OTFProofs.
Open Scope Z_scope.


Lemma numpy_pre th L spin name o fw Lo beta p : 1 <= L -> 0 <= Lo < L -> Z.abs spin < L -> numpy_precomps th L spin name o fw Lo beta p ->
  exists pre, match p with None => generate_precomputes th L spin name o fw Lo | Some q => Ok q end = Ok pre /\ pre_good beta L Lo (- spin) pre.
Proof.
  intros HL H0 Hs (Hb & [->|(q & -> & H)]).
  - apply (generate_ok th L spin name o fw Lo beta HL H0 Hs Hb).
  - exists q. split; [reflexivity|]. destruct H as [H|H].
    + destruct (generate_ok th L spin name o fw Lo beta HL H0 Hs Hb) as (q' & E & G). congruence.
    + destruct (generate_jax_ok th L spin name o fw Lo None beta HL H0 Hs Hb) as (q' & E & G). congruence.
Qed.
Lemma jax_pre th L spin name o fw Lo beta p : 1 <= L -> 0 <= Lo < L -> Z.abs spin < L -> jax_precomps th L spin name o fw Lo beta p ->
  exists pre, match p with None => generate_precomputes_jax th L spin name o fw Lo (Some beta) | Some q => Ok q end = Ok pre /\ pre_good beta L Lo (- spin) pre.
Proof.
  intros HL H0 Hs H. destruct (generate_jax_ok th L spin name o fw Lo (Some beta) beta HL H0 Hs eq_refl) as (q' & E & G).
  destruct H as [->|[(q & -> & H)|(Hb & [->|(q & -> & H)])]].
  - eauto.
  - exists q. split; [reflexivity|]. congruence.
  - eauto.
  - exists q. split; [reflexivity|]. destruct (numpy_pre th L spin name o fw Lo beta (Some q) HL H0 Hs) as (q2 & E2 & G2); [split; eauto|]. congruence.
Qed.
Lemma pre_fits_ok pre beta L Lo mm : pre_good beta L Lo mm pre -> pre_fits pre beta L Lo = Ok tt.
Proof. intros H. unfold pre_fits. rewrite (pg_nt _ _ _ _ _ H), (pg_nl _ _ _ _ _ H), !Z.eqb_refl. reflexivity. Qed.

Lemma orders_shift s L : orders s L = 2 * L - 1 + shift_of s.
Proof. destruct s; unfold orders, shift_of; lia. Qed.
Lemma scheme_cases s : s = MW \/ s = MWSS \/ (s = DH \/ s = GL \/ s = HEALPIX).
Proof. destruct s; auto 6. Qed.
Lemma shift_01 s : shift_of s = 0 \/ shift_of s = 1.
Proof. destruct s; cbn; auto. Qed.

(** a name that is not lower case can denote mw, dh or gl only; the tests then fail as they should *)
Lemma str_in_false s l : ~ In s l -> str_in s l = false.
Proof.
  intros H. unfold str_in. destruct (existsb _ l) eqn:E; [|reflexivity]. apply existsb_exists in E. destruct E as (x & Hx & E).
  unfold streq in E. apply String.eqb_eq in E. subst x. contradiction.
Qed.
Lemma half_offset_ok name s i : denotes name s -> plain_name name s -> half_offset name i = if i =? 0 then shift_of s else 0.
Proof.
  intros Hd Hp. unfold half_offset, denotes in *. destruct s; cbn [shift_of].
  1,3,4: rewrite str_in_false; [cbn [andb]; destruct (i =? 0); reflexivity|intros [<-|[<-|[]]]; discriminate Hd].
  - rewrite Hp by auto. cbn [str_in]. destruct (i =? 0); reflexivity.
  - rewrite Hp by auto. destruct (i =? 0); reflexivity.
Qed.
Lemma l_offset_ok name s : denotes name s -> l_offset name = shift_of s.
Proof. intros Hd. unfold l_offset. rewrite !Hd. now destruct s. Qed.

Lemma zeros_mat (n m : Z) : is_mat (zeros (fin (RtoC 0)) [n; m]) n m (fun _ _ => fin (RtoC 0)).
Proof. split; reflexivity. Qed.

(** ** Poles *)
Lemma msign_abs' k : RtoC (msign (Z.abs k)) = RtoC (sgn k).
Proof. now rewrite msign_abs. Qed.

Section Poles.
  Variables (L Lo spin : Z) (flm : ndarray C).
  Hypothesis HL : 1 <= L.
  Hypothesis HLo : 0 <= Lo < L.
  Hypothesis Hs : Z.abs spin < L.
  Hypothesis Hz : spin_zero L spin flm.

  Lemma south_sum m : - L < m < L -> latitude_sum L Lo spin flm PI m =
    if m =? spin then csum (zrange Lo L) (fun el => (RtoC (msign (Z.abs (el - spin))) * at2 flm el (spin + L - 1)%Z)%C) else RtoC 0.
  Proof.
    intros Hm. unfold latitude_sum. destruct (Z.eqb_spec m spin) as [->|Hne].
    - rewrite (cr_split Lo (Z.max Lo (Z.abs spin)) L) by lia. rewrite (cr_0 Lo).
      + rewrite Cplus_0_l. apply cr_ext. intros el Hel. rewrite wig_PI by lia. rewrite (proj2 (Z.eqb_eq _ _)) by lia. rewrite msign_abs.
        replace (el + - spin) with (el - spin) by lia. reflexivity.
      + intros el Hel. unfold at2. rewrite Hz by lia. ring.
    - apply cr_0. intros el Hel. destruct (Z.le_gt_cases (Z.abs spin) el).
      + rewrite wig_PI by lia. rewrite (proj2 (Z.eqb_neq _ _)) by lia. ring.
      + rewrite wig_out by lia. ring.
  Qed.
  Lemma north_sum m : - L < m < L -> latitude_sum L Lo spin flm 0 m =
    if m =? - spin then csum (zrange Lo L) (fun el => at2 flm el (- spin + L - 1)) else RtoC 0.
  Proof.
    intros Hm. unfold latitude_sum. destruct (Z.eqb_spec m (- spin)) as [->|Hne].
    - rewrite (cr_split Lo (Z.max Lo (Z.abs (- spin))) L) by lia. rewrite (cr_0 Lo).
      + rewrite Cplus_0_l. apply cr_ext. intros el Hel. rewrite wig_0 by lia. rewrite Z.eqb_refl. unfold at2. ring.
      + intros el Hel. unfold at2. rewrite Hz by lia. reflexivity.
    - apply cr_0. intros el Hel. destruct (Z.le_gt_cases (Z.abs spin) el).
      + rewrite wig_0 by lia. rewrite (proj2 (Z.eqb_neq _ _)) by lia. ring.
      + rewrite wig_out by lia. ring.
  Qed.
End Poles.

Section Inv.
  Variables (th : theta_fn) (flm : ndarray C) (L spin : Z) (s : scheme) (name : string) (nside : Z) (o : option Z) (re : bool) (Lo : Z) (beta : vec R).
  Hypothesis HL : 2 <= L.
  Hypothesis HLo : 0 <= Lo <= L - 2.
  Hypothesis Hs : Z.abs spin < L.
  Hypothesis Hd : denotes name s.
  Hypothesis Hp : plain_name name s.
  Hypothesis Hn : s = HEALPIX -> o = Some nside.
  Hypothesis Hf : shape flm = [L; 2 * L - 1].
  Hypothesis Hz : spin_zero L spin flm.
  Let nt := vlen beta.
  Let mo := shift_of s.

  (** the value of row t, order m, at angle x *)
  Definition irow (x : R) (m : Z) : C := if re && (m <? 0) then RtoC 0 else latitude_sum L Lo spin flm x m.

  Definition inv_result (a : ndarray ecx) : Prop := exists F, is_mat a nt (2 * L - 1 + mo) F /\
    forall t, 0 <= t < nt -> regular L Lo (- spin) (vat beta t) ->
      (mo = 1 -> F t 0 = fin (RtoC 0)) /\ forall m, - L < m < L -> F t (m + L - 1 + mo) = fin (irow (vat beta t) m).

  Lemma inv1_result a : inv1 L Lo spin mo beta flm re L a -> inv_result a.
  Proof.
    clear. intros (F & HF & H). exists F. split; [exact HF|]. intros t Ht Hr. destruct (H t Ht Hr) as (H1 & H2 & H3).
    split; [intros; apply H1; lia|]. intros m Hm. unfold irow. destruct (Z.ltb_spec m 0).
    - rewrite H2 by lia. destruct re; reflexivity.
    - rewrite andb_false_r. apply H3; lia.
  Qed.

  Lemma emit_ext {A} (e1 e2 : Z -> A -> Z -> Z -> Z -> plane -> result A) one pre mm (acc : A) : (forall i, e1 i = e2 i) ->
    pm_halves e1 one pre beta L Lo mm re acc = pm_halves e2 one pre beta L Lo mm re acc.
  Proof. clear. intros H. unfold pm_halves. now rewrite !H. Qed.

  Lemma inverse_step p : vlen beta = rings s L nside -> numpy_precomps th L spin name o false Lo beta p ->
    exists a, inverse_latitudinal_step th flm beta L spin o name re p Lo = Ok a /\ inv_result a.
  Proof.
    intros Hb HP. destruct (numpy_pre th L spin name o false Lo beta p) as (pre & E & G); auto; try lia.
    unfold inverse_latitudinal_step.
    assert (Es : ftm_shape (Some L) name o = Ok [nt; 2 * L - 1 + mo]).
    { unfold nt, mo. rewrite Hb, <- orders_shift. unfold ftm_shape, ntheta. rewrite !Hd. destruct s; try reflexivity. rewrite Hn by reflexivity. reflexivity. }
    rewrite Es. cbn [bind]. rewrite E. cbn [bind]. rewrite (pre_fits_ok _ _ _ _ _ G). cbn [bind].
    destruct (inverse_halves L Lo spin mo beta pre HL HLo (shift_01 s) G flm Hf Hz re (zeros (fin (RtoC 0)) [nt; 2 * L - 1 + mo])) as (a & Ea & Ia); [apply zeros_mat|].
    exists a. split; [|apply inv1_result, Ia]. rewrite <- Ea. apply emit_ext. intros i. f_equal. apply half_offset_ok; auto.
  Qed.

  (** ** The poles of the inverse step *)
  Definition all_rings (a : ndarray ecx) : Prop := exists F, is_mat a nt (2 * L - 1 + mo) F /\
    forall t, 0 <= t < nt -> usable_ring s nt L Lo spin (vat beta) t ->
      (mo = 1 -> F t 0 = fin (RtoC 0)) /\
      forall m, - L < m < L -> (re = true -> m < 0 -> spin = 0) -> F t (m + L - 1 + mo) = fin (irow (ring_angle s nt (vat beta) t) m).

  Lemma pole_set_ok (a : ndarray ecx) n m F r r' c c' v : is_mat a n m F -> norm_index n r = Some r' -> norm_index m c = Some c' ->
    exists b, pole_set a r c v = Ok b /\ is_mat b n m (fun i j => if i =? r' then if j =? c' then fin v else fin (RtoC 0) else F i j).
  Proof.
    clear. intros Ha Hr Hc. unfold pole_set. rewrite (is_mat_dim0 _ _ _ _ Ha), (is_mat_dim1 _ _ _ _ Ha), Hr, Hc. eexists. split; [reflexivity|].
    eapply is_mat_ext; [apply is_mat_mat|]. intros i j Hi Hj. cbn beta. rewrite (proj2 Ha) by auto. reflexivity.
  Qed.

  Lemma south_pole_ok : south_pole flm L spin Lo = Ok (latitude_sum L Lo spin flm PI spin).
  Proof.
    unfold south_pole, dim0, dim1. rewrite Hf. cbn [nth]. rewrite norm_index_in by lia. cbn [bind]. rewrite slice_len_in by lia. rewrite Z.eqb_refl. cbn [negb].
    rewrite south_sum by (auto; lia). rewrite Z.eqb_refl. f_equal. apply cr_ext. intros el Hel. unfold at2. replace (L - 1 + spin) with (spin + L - 1) by lia. reflexivity.
  Qed.
  Lemma north_pole_ok : north_pole flm L spin Lo = Ok (latitude_sum L Lo spin flm 0 (- spin)).
  Proof.
    unfold north_pole, dim0, dim1. rewrite Hf. cbn [nth]. rewrite norm_index_in by lia. cbn [bind]. rewrite slice_lo_in by lia.
    rewrite north_sum by (auto; lia). rewrite Z.eqb_refl. f_equal. apply cr_ext. intros el Hel. unfold at2. replace (L - 1 - spin) with (- spin + L - 1) by lia. reflexivity.
  Qed.

  Lemma south_irow m : - L < m < L -> (re = true -> m < 0 -> spin = 0) ->
    irow PI m = if m =? spin then latitude_sum L Lo spin flm PI spin else RtoC 0.
  Proof.
    intros Hm Hr. unfold irow. destruct (Z.eqb_spec m spin) as [->|Hne].
    - destruct (re && (spin <? 0)) eqn:E; [|reflexivity]. apply andb_prop in E. destruct E as [E1 E2]. specialize (Hr E1). lia.
    - destruct (re && (m <? 0)); [reflexivity|]. rewrite south_sum by (auto; lia). now rewrite (proj2 (Z.eqb_neq _ _) Hne).
  Qed.
  Lemma north_irow m : - L < m < L -> (re = true -> m < 0 -> spin = 0) ->
    irow 0 m = if m =? - spin then latitude_sum L Lo spin flm 0 (- spin) else RtoC 0.
  Proof.
    intros Hm Hr. unfold irow. destruct (Z.eqb_spec m (- spin)) as [->|Hne].
    - destruct (re && (- spin <? 0)) eqn:E; [|reflexivity]. apply andb_prop in E. destruct E as [E1 E2]. specialize (Hr E1). lia.
    - destruct (re && (m <? 0)); [reflexivity|]. rewrite north_sum by (auto; lia). now rewrite (proj2 (Z.eqb_neq _ _) Hne).
  Qed.

  Lemma set_poles_ok a : (s = MW -> 1 <= nt) -> (s = MWSS -> 2 <= nt) -> inv_result a ->
    exists b, set_poles a flm L spin name Lo = Ok b /\ all_rings b.
  Proof.
    intros Hn1 Hn2 (F & HF & H). unfold set_poles. rewrite (l_offset_ok name s Hd). fold mo. rewrite !Hd.
    assert (M : mo = shift_of s) by reflexivity.
    pose proof (scheme_cases s) as Cs.
    destruct Cs as [Es|[Es|Es]].
    - rewrite Es in M |- *. cbn -[Z.mul Z.sub south_pole north_pole pole_set]. rewrite south_pole_ok. cbn [bind].
      destruct (pole_set_ok a nt (2 * L - 1 + mo) F (-1) (nt - 1) (L - 1 + spin + mo) (L - 1 + spin + mo) (latitude_sum L Lo spin flm PI spin) HF)
        as (b & E & Hb); [rewrite norm_index_neg by (specialize (Hn1 Es); lia); f_equal; lia|apply norm_index_in; cbn in M; lia|].
      rewrite E. cbn [bind]. exists b. split; [reflexivity|]. eexists. split; [exact Hb|]. intros t Ht Hu. unfold usable_ring, ring_angle, pole_angle in *. rewrite Es in Hu |- *.
      cbn in M. split; [lia|]. intros m Hm Hr. cbn beta. destruct (Z.eqb_spec t (nt - 1)).
      + rewrite south_irow by auto. replace (m + L - 1 + mo =? L - 1 + spin + mo) with (m =? spin) by lia. destruct (m =? spin); reflexivity.
      + apply H; auto.
    - rewrite Es in M |- *. cbn -[Z.mul Z.sub south_pole north_pole pole_set]. rewrite south_pole_ok. cbn [bind].
      destruct (pole_set_ok a nt (2 * L - 1 + mo) F (-1) (nt - 1) (L - 1 + spin + mo) (L - 1 + spin + mo) (latitude_sum L Lo spin flm PI spin) HF)
        as (b & E & Hb); [rewrite norm_index_neg by (specialize (Hn2 Es); lia); f_equal; lia|apply norm_index_in; cbn in M; lia|].
      rewrite E. cbn [bind]. rewrite north_pole_ok. cbn [bind].
      destruct (pole_set_ok b nt (2 * L - 1 + mo) _ 0 0 (L - 1 - spin + mo) (L - 1 - spin + mo) (latitude_sum L Lo spin flm 0 (- spin)) Hb)
        as (b2 & E2 & Hb2); [apply norm_index_in; specialize (Hn2 Es); lia|apply norm_index_in; cbn in M; lia|].
      rewrite E2. exists b2. split; [reflexivity|]. eexists. split; [exact Hb2|]. intros t Ht Hu. unfold usable_ring, ring_angle, pole_angle in *. rewrite Es in Hu |- *.
      cbn in M. split.
      { intros _. cbn beta. destruct (Z.eqb_spec t 0); [rewrite (proj2 (Z.eqb_neq _ _)) by lia; reflexivity|].
        destruct (Z.eqb_spec t (nt - 1)); [rewrite (proj2 (Z.eqb_neq _ _)) by lia; reflexivity|]. apply H; auto. }
      intros m Hm Hr. cbn beta. destruct (Z.eqb_spec t 0).
      + rewrite north_irow by auto. replace (m + L - 1 + mo =? L - 1 - spin + mo) with (m =? - spin) by lia. destruct (m =? - spin); reflexivity.
      + destruct (Z.eqb_spec t (nt - 1)).
        * rewrite south_irow by auto. replace (m + L - 1 + mo =? L - 1 + spin + mo) with (m =? spin) by lia. destruct (m =? spin); reflexivity.
        * apply H; auto.
    - assert (Ep : forall t, pole_angle s nt t = None) by (intros t; destruct Es as [->|[->| ->]]; reflexivity).
      exists a. split; [destruct Es as [->|[->| ->]]; reflexivity|]. exists F. split; [exact HF|]. intros t Ht Hu.
      specialize (Hu (Ep t)). destruct (H t Ht Hu) as [H1 H2]. split; auto. intros m Hm _. unfold ring_angle. rewrite Ep. auto.
  Qed.

  Lemma inverse_step_jax p : (s = MW -> 1 <= nt) -> (s = MWSS -> 2 <= nt) -> jax_precomps th L spin name o false Lo beta p ->
    exists a, inverse_latitudinal_step_jax th flm beta L spin o name re p Lo = Ok a /\ all_rings a.
  Proof.
    intros Hn1 Hn2 HP. destruct (jax_pre th L spin name o false Lo beta p) as (pre & E & G); auto; try lia.
    unfold inverse_latitudinal_step_jax. rewrite E. cbn [bind]. rewrite (pre_fits_ok _ _ _ _ _ G). cbn [bind].
    replace (if str_in (lower name) ["mwss"%string; "healpix"%string] then 2 * L else 2 * L - 1) with (2 * L - 1 + mo)
      by (rewrite Hd; unfold mo; destruct s; cbn -[Z.mul Z.sub Z.add]; lia).
    destruct (inverse_halves L Lo spin mo beta pre HL HLo (shift_01 s) G flm Hf Hz re (zeros (fin (RtoC 0)) [nt; 2 * L - 1 + mo])) as (a & Ea & Ia); [apply zeros_mat|].
    assert (Eh : pm_halves (fun i => inv_emit flm (vlen beta) (L - Lo) (half_offset name i)) one_by_position pre beta L Lo (- spin) re
      (zeros (fin (RtoC 0)) [vlen beta; 2 * L - 1 + mo]) = Ok a).
    { rewrite <- Ea. apply emit_ext. intros i. f_equal. apply half_offset_ok; auto. }
    rewrite Eh. cbn [bind]. apply set_poles_ok; auto. apply inv1_result, Ia.
  Qed.
End Inv.

(** ** Forward *)
Lemma cr_last n f : 1 <= n -> csum (zrange 0 n) f = (csum (zrange 0 (n - 1)) f + f (n - 1)%Z)%C.
Proof. intros H. rewrite <- cr_snoc by lia. do 2 f_equal. lia. Qed.

Section Fwd.
  Variables (th : theta_fn) (ftm : ndarray C) (L spin : Z) (s : scheme) (name : string) (o : option Z) (re : bool) (Lo : Z) (beta : vec R).
  Hypothesis HL : 2 <= L.
  Hypothesis HLo : 0 <= Lo <= L - 2.
  Hypothesis Hs : Z.abs spin < L.
  Hypothesis Hd : denotes name s.
  Hypothesis Hp : plain_name name s.
  Let nt := vlen beta.
  Let mo := shift_of s.
  Hypothesis Hf : shape ftm = [nt; 2 * L - 1 + mo].

  Definition fwd_result (n : Z) (ft : ndarray C) (be : Z -> R) (a : ndarray ecx) : Prop := exists F, is_mat a L (2 * L - 1) F /\
    forall el m, 0 <= el < L -> - L < m < L ->
      (el < Lo -> F el (m + L - 1) = fin (RtoC 0)) /\
      (Lo <= el -> Z.abs spin <= el -> F el (m + L - 1) = fin (if re && (m <? 0) then RtoC 0 else angle_sum L mo spin n ft be el m)).

  Lemma fwd1_result ft be a : fwd1 L Lo spin mo be ft re L a -> fwd_result (vlen be) ft (vat be) a.
  Proof.
    clear. intros (F & HF & H). exists F. split; [exact HF|]. intros el m Hel Hm. destruct (H el Hel) as (H1 & H2 & H3 & H4).
    split; [intros; apply H1; lia|]. intros H5 H6. destruct (Z.ltb_spec m 0).
    - rewrite H2 by lia. destruct re; reflexivity.
    - rewrite andb_false_r. apply H4; lia.
  Qed.

  Lemma forward_step p : numpy_precomps th L spin name o true Lo beta p ->
    (forall t, 0 <= t < nt -> regular L Lo (- spin) (vat beta t)) ->
    exists a, forward_latitudinal_step th ftm beta L spin o name re p Lo = Ok a /\ fwd_result nt ftm (vat beta) a.
  Proof.
    intros HP Hreg. destruct (numpy_pre th L spin name o true Lo beta p) as (pre & E & G); auto; try lia.
    unfold forward_latitudinal_step. rewrite E. cbn [bind]. rewrite (pre_fits_ok _ _ _ _ _ G). cbn [bind].
    destruct (forward_halves L Lo spin mo beta pre HL HLo (shift_01 s) G ftm Hf Hreg one_by_position) with (re := re) (a0 := zeros (fin (RtoC 0)) [L; 2 * L - 1])
      as (a & Ea & Ia); [intros; unfold one_by_position; lia|apply zeros_mat|].
    exists a. split; [|apply fwd1_result, Ia]. rewrite <- Ea. unfold flm_shape. apply emit_ext. intros i. f_equal. apply half_offset_ok; auto.
  Qed.

  (** the rings handed to the recursion *)
  Definition r0 : Z := match s with MWSS => 1 | _ => 0 end.
  Definition r1 : Z := match s with MW | MWSS => nt - 1 | _ => nt end.
  Hypothesis Hrings : r0 <= r1 /\ 0 <= r1.

  Lemma slice_m1 n a : 0 <= a <= n - 1 -> slice_lo n a = a /\ slice_len n a (-1) = n - 1 - a.
  Proof. clear. intros H. unfold slice_lo, slice_len, clamp. destruct (Z.ltb_spec a 0); [lia|]. change (-1 <? 0) with true. cbv iota. split; lia. Qed.

  Lemma sliced : exists ft be, (if streq (lower name) "mwss" then (slice2 ftm 1 (-1) 0 (dim1 ftm), vslice beta 1 (-1))
    else if streq (lower name) "mw" then (slice2 ftm 0 (-1) 0 (dim1 ftm), vslice beta 0 (-1)) else (ftm, beta)) = (ft, be) /\
    be = inner_angles s beta /\ vlen be = r1 - r0 /\ (forall t, 0 <= t < r1 - r0 -> vat be t = vat beta (t + r0)) /\
    is_mat ft (r1 - r0) (2 * L - 1 + mo) (fun t c => at2 ftm (t + r0) c).
  Proof.
    clear Hs HLo. pose proof Hrings as Hr. unfold r0, r1, inner_angles in *. rewrite !Hd.
    assert (M : 0 <= mo) by (unfold mo; destruct s; cbn; lia).
    assert (D0 : dim0 ftm = nt) by (unfold dim0; rewrite Hf; reflexivity).
    assert (D1 : dim1 ftm = 2 * L - 1 + mo) by (unfold dim1; rewrite Hf; reflexivity).
    pose proof (scheme_cases s) as Cs.
    destruct Cs as [Es|[Es|Es]].
    - rewrite Es in Hr |- *. cbn [scheme_name streq String.eqb Ascii.eqb Bool.eqb]. eexists. eexists. split; [reflexivity|]. split; [reflexivity|].
      destruct (slice_m1 nt 0) as [A B]; [lia|]. unfold vslice. cbn [vlen vat]. fold nt. rewrite A, B. split; [lia|].
      split; [intros; f_equal; lia|]. unfold slice2. rewrite D0, D1, A, B, slice_len_in, slice_lo_in by lia. split.
      + unfold mat. cbn [shape]. rewrite !Z.sub_0_r. reflexivity.
      + intros r c Hr' Hc. unfold at2, mat. cbn [get nth]. rewrite Z.add_0_l. f_equal. f_equal. lia.
    - rewrite Es in Hr |- *. cbn [scheme_name streq String.eqb Ascii.eqb Bool.eqb]. eexists. eexists. split; [reflexivity|]. split; [reflexivity|].
      destruct (slice_m1 nt 1) as [A B]; [lia|]. unfold vslice. cbn [vlen vat]. fold nt. rewrite A, B. split; [lia|].
      split; [intros; f_equal; lia|]. unfold slice2. rewrite D0, D1, A, B, slice_len_in, slice_lo_in by lia. split.
      + unfold mat. cbn [shape]. rewrite !Z.sub_0_r. reflexivity.
      + intros r c Hr' Hc. unfold at2, mat. cbn [get nth]. rewrite Z.add_0_l. f_equal. f_equal. lia.
    - exists ftm, beta. split; [destruct Es as [->|[->| ->]]; reflexivity|].
      replace (match s with MWSS => vslice beta 1 (-1) | MW => vslice beta 0 (-1) | _ => beta end) with beta by (destruct Es as [->|[->| ->]]; reflexivity).
      replace (match s with MWSS => 1 | _ => 0 end) with 0 by (destruct Es as [->|[->| ->]]; reflexivity).
      replace (match s with MW | MWSS => nt - 1 | _ => nt end) with nt by (destruct Es as [->|[->| ->]]; reflexivity).
      rewrite Z.sub_0_r. split; [reflexivity|]. split; [reflexivity|]. split; [intros; f_equal; lia|]. split; [exact Hf|].
      intros. f_equal. lia.
  Qed.

  (** adding a pole *)
  Lemma pole_add_ok (a : ndarray ecx) F c v : is_mat a L (2 * L - 1) F -> 0 <= c < 2 * L - 1 ->
    exists b, pole_add a c Lo v = Ok b /\
      is_mat b L (2 * L - 1) (fun el j => if (j =? c) && (Lo <=? el) then cadd (F el j) (fin (v el)) else F el j).
  Proof.
    intros Ha Hc. unfold pole_add. rewrite (is_mat_dim0 _ _ _ _ Ha), (is_mat_dim1 _ _ _ _ Ha), norm_index_in by lia.
    rewrite slice_lo_in by lia. eexists. split; [reflexivity|]. eapply is_mat_ext; [apply is_mat_mat|]. intros el j Hel Hj. cbn beta.
    rewrite (proj2 Ha) by auto. reflexivity.
  Qed.

  Definition pole_sum (x : R) (t el m : Z) : C := (RtoC (wigner_d el m (- spin)%Z x) * get ftm [t; m + L - 1 + mo]%Z)%C.

  Lemma add_south_ok (a : ndarray ecx) F : 1 <= nt -> is_mat a L (2 * L - 1) F ->
    exists b G, add_south a ftm L spin mo Lo = Ok b /\ is_mat b L (2 * L - 1) G /\
      (forall el m, 0 <= el < L -> - L < m < L -> el < Lo -> G el (m + L - 1) = F el (m + L - 1)) /\
      (forall el m z, 0 <= el < L -> - L < m < L -> Lo <= el -> Z.abs spin <= el -> F el (m + L - 1) = fin z ->
         G el (m + L - 1) = fin (z + pole_sum PI (nt - 1) el m)%C).
  Proof.
    intros Hn Ha. assert (M := shift_01 s). fold mo in M. unfold add_south. unfold aread. rewrite Hf. cbn [norm_indices].
    rewrite norm_index_neg by lia. rewrite norm_index_in by lia. cbn [bind].
    destruct (pole_add_ok a F (L - 1 + spin) (fun el => (RtoC (msign (Z.abs (el - spin))) * get ftm [-1 + nt; L - 1 + spin + mo]%Z)%C) Ha) as (b & E & Hb); [lia|].
    rewrite E. eexists. eexists. split; [reflexivity|]. split; [exact Hb|]. split.
    - intros el m Hel Hm H. cbn beta. destruct ((m + L - 1 =? L - 1 + spin) && (Lo <=? el)) eqn:X; [lia|reflexivity].
    - intros el m z Hel Hm H1 H2 Hz. cbn beta. rewrite Hz. rewrite (proj2 (Z.leb_le _ _)) by lia. rewrite andb_true_r. unfold pole_sum.
      destruct (Z.eqb_spec (m + L - 1) (L - 1 + spin)) as [X|X].
      + assert (m = spin) as -> by lia. rewrite cadd_fin. f_equal. f_equal. rewrite wig_PI by lia. rewrite (proj2 (Z.eqb_eq _ _)) by lia.
        rewrite msign_abs. replace (el + - spin) with (el - spin) by lia. replace (-1 + nt) with (nt - 1) by lia. replace (L - 1 + spin + mo) with (spin + L - 1 + mo) by lia. reflexivity.
      + f_equal. destruct (Z.le_gt_cases (Z.abs m) el).
        * rewrite wig_PI by lia. rewrite (proj2 (Z.eqb_neq _ _)) by lia. ring.
        * rewrite wig_out by lia. ring.
  Qed.
  Lemma add_north_ok (a : ndarray ecx) F : 1 <= nt -> is_mat a L (2 * L - 1) F ->
    exists b G, add_north a ftm L spin mo Lo = Ok b /\ is_mat b L (2 * L - 1) G /\
      (forall el m, 0 <= el < L -> - L < m < L -> el < Lo -> G el (m + L - 1) = F el (m + L - 1)) /\
      (forall el m z, 0 <= el < L -> - L < m < L -> Lo <= el -> Z.abs spin <= el -> F el (m + L - 1) = fin z ->
         G el (m + L - 1) = fin (z + pole_sum 0 0 el m)%C).
  Proof.
    intros Hn Ha. assert (M := shift_01 s). fold mo in M. unfold add_north. unfold aread. rewrite Hf. cbn [norm_indices].
    rewrite norm_index_in by lia. rewrite norm_index_in by lia. cbn [bind].
    destruct (pole_add_ok a F (L - 1 - spin) (fun el => get ftm [0; L - 1 - spin + mo]) Ha) as (b & E & Hb); [lia|].
    rewrite E. eexists. eexists. split; [reflexivity|]. split; [exact Hb|]. split.
    - intros el m Hel Hm H. cbn beta. destruct ((m + L - 1 =? L - 1 - spin) && (Lo <=? el)) eqn:X; [lia|reflexivity].
    - intros el m z Hel Hm H1 H2 Hz. cbn beta. rewrite Hz. rewrite (proj2 (Z.leb_le _ _)) by lia. rewrite andb_true_r. unfold pole_sum.
      destruct (Z.eqb_spec (m + L - 1) (L - 1 - spin)) as [X|X].
      + assert (m = - spin) as -> by lia. rewrite cadd_fin. f_equal. f_equal. rewrite wig_0 by lia. rewrite Z.eqb_refl.
        replace (L - 1 - spin + mo) with (- spin + L - 1 + mo) by lia. ring.
      + f_equal. destruct (Z.le_gt_cases (Z.abs m) el).
        * rewrite wig_0 by lia. rewrite (proj2 (Z.eqb_neq _ _)) by lia. ring.
        * rewrite wig_out by lia. ring.
  Qed.

  Lemma pole_neg x t el m : x = 0%R \/ x = PI -> spin = 0 -> m < 0 -> pole_sum x t el m = RtoC 0.
  Proof.
    intros Hx H0 Hm. unfold pole_sum. destruct (Z.le_gt_cases (Z.abs m) el).
    - destruct Hx as [->| ->]; [rewrite wig_0 by lia|rewrite wig_PI by lia]; rewrite (proj2 (Z.eqb_neq _ _)) by lia; ring.
    - rewrite wig_out by lia. ring.
  Qed.

  Definition all_rings_fwd (a : ndarray ecx) : Prop := exists F, is_mat a L (2 * L - 1) F /\
    forall el m, 0 <= el < L -> - L < m < L ->
      (el < Lo -> F el (m + L - 1) = fin (RtoC 0)) /\
      (Lo <= el -> Z.abs spin <= el -> (re = true -> m < 0 -> spin = 0) ->
       F el (m + L - 1) = fin (if re && (m <? 0) then RtoC 0 else angle_sum L mo spin nt ftm (ring_angle s nt (vat beta)) el m)).

  Lemma inner_usable t : (forall t, 0 <= t < nt -> usable_ring s nt L Lo spin (vat beta) t) -> r0 <= t < r1 -> regular L Lo (- spin) (vat beta t).
  Proof.
    intros H Ht. unfold r0, r1 in *. apply H; [destruct s; lia|]. unfold pole_angle. destruct s; try reflexivity.
    - rewrite (proj2 (Z.eqb_neq _ _)) by lia. reflexivity.
    - rewrite !(proj2 (Z.eqb_neq _ _)) by lia. reflexivity.
  Qed.
  Lemma inner_sum (ft : ndarray C) be el m : (forall t, 0 <= t < r1 - r0 -> be t = vat beta (t + r0)) -> - L < m < L ->
    is_mat ft (r1 - r0) (2 * L - 1 + mo) (fun t c => at2 ftm (t + r0) c) ->
    angle_sum L mo spin (r1 - r0) ft be el m = csum (zrange r0 r1) (fun t => pole_sum (vat beta t) t el m).
  Proof.
    intros Hbe Hm Hft. assert (M := shift_01 s). fold mo in M. unfold angle_sum.
    rewrite (cr_ext _ _ _ (fun t => pole_sum (vat beta (t + r0)) (t + r0) el m)).
    - rewrite cr_shift with (f := fun t => pole_sum (vat beta t) t el m). f_equal. f_equal; lia.
    - intros t Ht. unfold pole_sum. rewrite Hbe by lia. f_equal. apply (proj2 Hft t (m + L - 1 + mo)); lia.
  Qed.

  Lemma forward_step_jax p : jax_precomps th L spin name o true Lo (inner_angles s beta) p -> 1 <= nt ->
    (forall t, 0 <= t < nt -> usable_ring s nt L Lo spin (vat beta) t) ->
    exists a, forward_latitudinal_step_jax th ftm beta L spin o name re p Lo = Ok a /\ all_rings_fwd a.
  Proof.
    intros HP Hn1 Hu. destruct sliced as (ft & be & Esl & Ebe & Hlb & Hvb & Hft). unfold forward_latitudinal_step_jax. rewrite Esl.
    rewrite <- Ebe in HP. destruct (jax_pre th L spin name o true Lo be p) as (pre & E & G); auto; try lia.
    rewrite E. cbn [bind]. rewrite (pre_fits_ok _ _ _ _ _ G). cbn [bind].
    assert (Hreg : forall t, 0 <= t < vlen be -> regular L Lo (- spin) (vat be t)).
    { intros t Ht. rewrite Hlb in Ht. rewrite Hvb by lia. apply inner_usable; auto; lia. }
    destruct (forward_halves L Lo spin mo be pre HL HLo (shift_01 s) G ft) with (one := one_by_index) (re := re) (a0 := zeros (fin (RtoC 0)) [L; 2 * L - 1])
      as (a & Ea & Ia); [rewrite Hlb; apply Hft|exact Hreg|intros; unfold one_by_index; rewrite (pg_ind _ _ _ _ _ G); lia|apply zeros_mat|].
    assert (Eh : pm_halves (fun i => fwd_emit ft (vlen be) (L - Lo) (half_offset name i)) one_by_index pre be L Lo (- spin) re
      (zeros (fin (RtoC 0)) (flm_shape L)) = Ok a).
    { rewrite <- Ea. unfold flm_shape. apply emit_ext. intros i. f_equal. apply half_offset_ok; auto. }
    rewrite Eh. cbn [bind]. clear Eh Ea. apply fwd1_result in Ia. destruct Ia as (F & HF & HFv). rewrite Hlb in HFv.
    rewrite (l_offset_ok name s Hd). fold mo. rewrite !Hd.
    assert (IS := fun el m (Hm : - L < m < L) => inner_sum ft (vat be) el m Hvb Hm Hft).
    pose proof (scheme_cases s) as Cs.
    assert (Ang : forall el m, angle_sum L mo spin nt ftm (ring_angle s nt (vat beta)) el m = csum (zrange 0 nt) (fun t => pole_sum (ring_angle s nt (vat beta) t) t el m)) by reflexivity.
    destruct Cs as [Es|[Es|Es]].
    - rewrite Es. cbn [scheme_name str_in streq existsb String.eqb Ascii.eqb Bool.eqb orb].
      destruct (add_south_ok a F Hn1 HF) as (b & B & E1 & HB & B1 & B2). rewrite E1. cbn [bind]. exists b. split; [reflexivity|].
      exists B. split; [exact HB|]. intros el m Hel Hm. destruct (HFv el m Hel Hm) as [V1 V2]. split.
      + intros H. rewrite B1 by auto. auto.
      + intros H1 H2 H3. erewrite B2; [|auto|auto|auto|auto|apply V2; auto]. f_equal.
        destruct (re && (m <? 0)) eqn:Er.
        * apply andb_prop in Er. rewrite pole_neg; [ring|auto|apply H3; tauto || lia|lia].
        * rewrite IS, Ang by auto. unfold r0, r1. rewrite Es. rewrite (cr_last nt) by lia.
          unfold ring_angle at 2, pole_angle. rewrite Z.eqb_refl. f_equal.
          apply cr_ext. intros t Ht. unfold ring_angle, pole_angle. rewrite (proj2 (Z.eqb_neq _ _)) by lia. reflexivity.
    - rewrite Es. cbn [scheme_name str_in streq existsb String.eqb Ascii.eqb Bool.eqb orb].
      destruct (add_south_ok a F Hn1 HF) as (b & B & E1 & HB & B1 & B2). rewrite E1. cbn [bind].
      destruct (add_north_ok b B Hn1 HB) as (c & D & E2 & HD & D1 & D2). rewrite E2. exists c. split; [reflexivity|].
      exists D. split; [exact HD|]. intros el m Hel Hm. destruct (HFv el m Hel Hm) as [V1 V2]. split.
      + intros H. rewrite D1, B1 by auto. auto.
      + intros H1 H2 H3. erewrite D2; [|auto|auto|auto|auto|eapply B2; [auto|auto|auto|auto|apply V2; auto]]. f_equal.
        destruct (re && (m <? 0)) eqn:Er.
        * apply andb_prop in Er. rewrite !pole_neg; [ring|auto|apply H3; tauto || lia|lia|auto|apply H3; tauto || lia|lia].
        * assert (Hr : 2 <= nt) by (pose proof Hrings as Hr; unfold r0, r1 in Hr; rewrite Es in Hr; lia).
          rewrite IS, Ang by auto. unfold r0, r1. rewrite Es. rewrite (cr_last nt) by lia.
          rewrite (cr_cons 0) by lia. rewrite Z.add_0_l.
          unfold ring_angle at 1, pole_angle. cbn [Z.eqb].
          unfold ring_angle at 2, pole_angle. rewrite (proj2 (Z.eqb_neq (nt - 1) 0)) by lia. rewrite Z.eqb_refl.
          rewrite (cr_ext 1 _ (fun t => pole_sum (ring_angle MWSS nt (vat beta) t) t el m) (fun t => pole_sum (vat beta t) t el m)); [ring|].
          intros t Ht. unfold ring_angle, pole_angle. rewrite !(proj2 (Z.eqb_neq _ _)) by lia. reflexivity.
    - assert (Ep : forall t, pole_angle s nt t = None) by (intros t; destruct Es as [Es|[Es|Es]]; rewrite Es; reflexivity).
      exists a. split; [destruct Es as [Es|[Es|Es]]; rewrite Es; reflexivity|]. exists F. split; [exact HF|]. intros el m Hel Hm. destruct (HFv el m Hel Hm) as [V1 V2].
      split; [exact V1|]. intros H1 H2 H3. rewrite V2 by auto. destruct (re && (m <? 0)); [reflexivity|]. f_equal. rewrite IS, Ang by auto.
      replace r0 with 0 by (unfold r0; destruct Es as [Es|[Es|Es]]; rewrite Es; reflexivity). replace r1 with nt by (unfold r1; destruct Es as [Es|[Es|Es]]; rewrite Es; reflexivity).
      apply cr_ext. intros t Ht. unfold ring_angle. now rewrite Ep.
  Qed.
End Fwd.
