(** The kernel of the precomputed transforms in rounded arithmetic: rings that are not equidistant,
    and the normalisation. *)
From Coq Require Import Reals Lra Lia ZifyBool.
From Coquelicot Require Import Complex.
From Verif Require Import Lib.Py Lib.PyFacts Lib.Vec Lib.Sums Lib.Cplx Lib.Arr Lib.ArrFacts Lib.MatFacts Model.Index Model.Samples Model.Risbo
  Model.RisboFloat Model.Spherical Model.Precompute Model.PrecomputeFloat Spec.WignerSpec Spec.RoundingSpec Spec.PrecomputeFloatSpec
  Proofs.WignerDh Proofs.WignerCalc Proofs.RisboProofs Proofs.SpectralBound Proofs.RisboFloatProofs Proofs.PrecomputeKernel Proofs.FloatSums.
Open Scope R_scope.

(** degrees and orders at which the kernel does not vanish *)
Definition adm (spin l m : Z) : Prop := (Z.abs spin <= l)%Z /\ (Z.abs m <= l)%Z.
Definition adm_b (spin l m : Z) : bool := ((Z.abs spin <=? l) && (Z.abs m <=? l))%Z.
Definition wsize (spin l m : Z) : R := if adm_b spin l m then elfactor l else 0.
(** the d-functions before normalisation, the kernel after it *)
Definition dl_near (a : ndarray R) (T L spin : Z) (x : Z -> R) (B : Z -> R) : Prop :=
  shape a = [T; L; 2 * L - 1]%Z /\ forall t l i, (0 <= t < T)%Z -> (0 <= l < L)%Z -> (0 <= i < 2 * L - 1)%Z ->
    if adm_b spin l (i - (L - 1)) then Rabs (at3 a t l i - wigner_d l (i - (L - 1)) (- spin) (x t)) <= B l else at3 a t l i = 0.
Definition kernel_near (a : ndarray R) (T L spin : Z) (x : Z -> R) (kap : R) : Prop :=
  shape a = [T; L; 2 * L - 1]%Z /\ forall t l i, (0 <= t < T)%Z -> (0 <= l < L)%Z -> (0 <= i < 2 * L - 1)%Z ->
    Rabs (at3 a t l i - elfactor l * wigner_d l (i - (L - 1)) (- spin) (x t)) <= kap * wsize spin l (i - (L - 1)).

Lemma elfactor_lower l : (0 <= l)%Z -> / 4 <= elfactor l.
Proof.
  intros Hl. unfold elfactor. rewrite <- (sqrt_square (/ 4)) by lra. apply sqrt_le_1_alt.
  pose proof PI_4. pose proof PI_RGT_0. assert (1 <= IZR (2 * l + 1)) by (apply IZR_le; lia).
  apply Rle_trans with (1 / (4 * PI)).
  - unfold Rdiv. rewrite Rmult_1_l. rewrite <- Rinv_mult_distr by lra. apply Rinv_le_contravar; lra.
  - unfold Rdiv. apply Rmult_le_compat_r; [|assumption]. left. apply Rinv_0_lt_compat. lra.
Qed.
Lemma wigner_le1 l m n x : Rabs (wigner_d l m n x) <= 1.
Proof.
  destruct (Z_le_dec (Z.abs m) l); [destruct (Z_le_dec (Z.abs n) l)|].
  - rewrite wigner_dh by lia. apply dh_le1; lia.
  - rewrite wigner_d_out by lia. rewrite Rabs_R0. lra.
  - rewrite wigner_d_out by lia. rewrite Rabs_R0. lra.
Qed.
Lemma sqrt_close r x d : 0 <= r -> 0 < x -> Rabs (r - x) <= d * x -> Rabs (sqrt r - sqrt x) <= d * sqrt x.
Proof.
  intros Hr Hx H. assert (P : 0 < sqrt x) by (now apply sqrt_lt_R0). assert (Q : 0 <= sqrt r) by apply sqrt_pos.
  assert (E : (sqrt r - sqrt x) * (sqrt r + sqrt x) = r - x).
  { replace ((sqrt r - sqrt x) * (sqrt r + sqrt x)) with (sqrt r * sqrt r - sqrt x * sqrt x) by ring. rewrite !sqrt_sqrt by lra. reflexivity. }
  assert (F : Rabs (sqrt r - sqrt x) * (sqrt r + sqrt x) = Rabs (r - x)).
  { rewrite <- E, Rabs_mult. f_equal. rewrite Rabs_right; lra. }
  apply (Rmult_le_reg_r (sqrt x)); [assumption|]. replace (d * sqrt x * sqrt x) with (d * x) by (rewrite <- (sqrt_sqrt x) at 1 by lra; ring).
  eapply Rle_trans; [|exact H]. rewrite <- F. apply Rmult_le_compat_l; [apply Rabs_pos|]. lra.
Qed.

Section Float.
  Variables (A : arith) (u eta : R).
  Hypothesis HA : rounded A u eta.
  Let u0 : 0 <= u := rd_u _ _ _ HA.
  Let e0 : 0 <= eta := rd_eta _ _ _ HA.
  Hypothesis Hu : u <= / 1000.
  Hypothesis He : 4 * eta <= u.

  Lemma elf_err l : (0 <= l)%Z -> Rabs (pf_elfactor A l - elfactor l) <= 12 * u * elfactor l.
  Proof.
    intros Hl. pose proof PI_4 as P4. pose proof PI2_3_2 as P3. assert (P3' : 3 < PI) by lra. clear P3.
    pose proof (elfactor_lower l Hl) as EL.
    unfold pf_elfactor, elfactor in *. set (n := IZR (2 * l + 1)) in *. assert (N1 : 1 <= n) by (apply IZR_le; lia).
    pose proof (rd_pi _ _ _ HA) as R1. set (p := fpi A) in *.
    assert (D1 : Rabs (p - PI) <= (11 / 10) * u * PI) by nra. clear R1.
    pose proof (rd_mul _ _ _ HA 4 p) as R2. set (q := fmul A 4 p) in *.
    assert (Pp : Rabs (4 * p) <= 4 * PI * (1002 / 1000)).
    { rewrite Rabs_mult, (Rabs_right 4) by lra. assert (Rabs p <= PI * (1002 / 1000)); [|lra].
      replace p with (PI + (p - PI)) by ring. eapply Rle_trans; [apply Rabs_triang|]. rewrite (Rabs_right PI) by lra. nra. }
    assert (D2 : Rabs (q - 4 * PI) <= (22 / 10) * u * (4 * PI)).
    { replace (q - 4 * PI) with ((q - 4 * p) + 4 * (p - PI)) by ring. eapply Rle_trans; [apply Rabs_triang|].
      rewrite (Rabs_mult 4), (Rabs_right 4) by lra.
      assert (u * Rabs (4 * p) <= u * (4 * PI * (1002 / 1000))) by (now apply Rmult_le_compat_l).
      assert (u * 3 <= u * PI) by (apply Rmult_le_compat_l; lra). lra. }
    assert (UP : 0 <= u * PI) by (apply Rmult_le_pos; lra).
    assert (UP2 : u * PI <= / 1000 * PI) by (apply Rmult_le_compat_r; lra).
    assert (Q0 : (4 * PI) * (997 / 1000) <= q) by (unfold Rabs in D2; destruct (Rcase_abs (q - 4 * PI)); lra).
    assert (Qn : q <> 0) by lra.
    pose proof (rd_div _ _ _ HA n q Qn) as R3. set (r := fdiv A n q) in *. set (x := n / (4 * PI)) in *.
    assert (X0 : / 16 <= x).
    { unfold x. apply Rle_trans with (1 / (4 * PI)).
      - unfold Rdiv. rewrite Rmult_1_l. apply Rinv_le_contravar; lra.
      - unfold Rdiv. apply Rmult_le_compat_r; [|assumption]. left. apply Rinv_0_lt_compat. lra. }
    assert (D3 : Rabs (n / q - x) <= (222 / 100) * u * x).
    { replace (n / q - x) with (x * ((4 * PI - q) / q)) by (unfold x; field; split; lra).
      rewrite Rabs_mult, (Rabs_right x) by lra. rewrite (Rmult_comm x). apply Rmult_le_compat_r; [lra|].
      unfold Rdiv. rewrite Rabs_mult, Rabs_inv, (Rabs_right q) by lra. apply (Rmult_le_reg_r q); [lra|].
      rewrite Rmult_assoc, Rinv_l, Rmult_1_r by assumption. rewrite Rabs_minus_sym. eapply Rle_trans; [exact D2|].
      apply Rle_trans with (222 / 100 * u * (4 * PI * (997 / 1000))); [lra|]. apply Rmult_le_compat_l; lra. }
    assert (UX : 0 <= u * x) by (apply Rmult_le_pos; lra).
    assert (UX2 : u * x <= / 1000 * x) by (apply Rmult_le_compat_r; lra).
    assert (UX3 : u * / 16 <= u * x) by (apply Rmult_le_compat_l; lra).
    assert (B3 : Rabs (n / q) <= (1003 / 1000) * x).
    { replace (n / q) with (x + (n / q - x)) by ring. eapply Rle_trans; [apply Rabs_triang|]. rewrite (Rabs_right x) by lra. lra. }
    assert (D4 : Rabs (r - x) <= (73 / 10) * u * x).
    { replace (r - x) with ((r - n / q) + (n / q - x)) by ring. eapply Rle_trans; [apply Rabs_triang|].
      assert (u * Rabs (n / q) <= u * (1003 / 1000 * x)) by (now apply Rmult_le_compat_l). lra. }
    assert (R0 : 0 <= r) by (unfold Rabs in D4; destruct (Rcase_abs (r - x)); lra).
    pose proof (sqrt_close r x _ R0 ltac:(lra) D4) as D5. pose proof (rd_sqrt _ _ _ HA r R0) as R5.
    set (e := sqrt x) in *. assert (Ee : 0 < e) by lra.
    assert (UE : 0 <= u * e) by (apply Rmult_le_pos; lra). assert (UE2 : u * e <= / 1000 * e) by (apply Rmult_le_compat_r; lra).
    assert (UE3 : u * / 4 <= u * e) by (apply Rmult_le_compat_l; lra).
    assert (Bs : sqrt r <= (1008 / 1000) * e) by (unfold Rabs in D5; destruct (Rcase_abs (sqrt r - e)); lra).
    assert (u * sqrt r <= u * (1008 / 1000 * e)) by (now apply Rmult_le_compat_l).
    replace (fsqrt A r - e) with ((fsqrt A r - sqrt r) + (sqrt r - e)) by ring. eapply Rle_trans; [apply Rabs_triang|]. lra.
  Qed.

  Lemma normalise_near (HZ : zeros_exact A) a T L spin x B kap : dl_near a T L spin x B -> (1 <= L)%Z ->
    (forall l, (0 <= l < L)%Z -> 0 <= B l <= 1 /\ (102 / 100) * B l + 17 * u <= kap) ->
    exists k, pf_normalise A a L = Ok k /\ kernel_near k T L spin x kap.
  Proof.
    intros [Hs H] HL HB. unfold pf_normalise, dim0, dim1, dim2. rewrite Hs. cbn [nth]. rewrite Z.eqb_refl.
    eexists. split; [reflexivity|]. split; [reflexivity|]. intros t l i Ht Hl Hi.
    unfold at3 at 1. cbn [arr3 get nth]. specialize (H t l i Ht Hl Hi). unfold wsize.
    destruct (adm_b spin l (i - (L - 1))) eqn:E.
    - destruct (HB l Hl) as [B0 BK]. pose proof (elf_err l ltac:(lia)) as EE. pose proof (elfactor_lower l ltac:(lia)) as EL.
      pose proof (wigner_le1 l (i - (L - 1)) (- spin) (x t)) as W1.
      set (d := wigner_d l (i - (L - 1)) (- spin) (x t)) in *. set (dh := at3 a t l i) in *. set (e := elfactor l) in *. set (eh := pf_elfactor A l) in *.
      pose proof (rd_mul _ _ _ HA dh eh) as R1. set (b := B l) in *.
      assert (UE : 0 <= u * e) by (apply Rmult_le_pos; lra). assert (UE2 : u * e <= / 1000 * e) by (apply Rmult_le_compat_r; lra).
      assert (UE3 : u * / 4 <= u * e) by (apply Rmult_le_compat_l; lra).
      assert (Eh : Rabs eh <= (1012 / 1000) * e).
      { replace eh with (e + (eh - e)) by ring. eapply Rle_trans; [apply Rabs_triang|]. rewrite (Rabs_right e) by lra. lra. }
      assert (Dh : Rabs dh <= 2).
      { replace dh with (d + (dh - d)) by ring. eapply Rle_trans; [apply Rabs_triang|]. lra. }
      assert (M1 : Rabs (dh * eh) <= 2 * (1012 / 1000 * e)) by (rewrite Rabs_mult; apply Rmult_le_compat; try apply Rabs_pos; assumption).
      assert (M2 : Rabs ((dh - d) * eh) <= b * (1012 / 1000 * e)) by (rewrite Rabs_mult; apply Rmult_le_compat; try apply Rabs_pos; assumption).
      assert (M3 : Rabs (d * (eh - e)) <= 1 * (12 * u * e)) by (rewrite Rabs_mult; apply Rmult_le_compat; try apply Rabs_pos; assumption).
      assert (u * Rabs (dh * eh) <= u * (2 * (1012 / 1000 * e))) by (now apply Rmult_le_compat_l).
      replace (fmul A dh eh - e * d) with ((fmul A dh eh - dh * eh) + (dh - d) * eh + d * (eh - e)) by ring.
      eapply Rle_trans; [apply Rabs_triang|]. eapply Rle_trans; [apply Rplus_le_compat_r, Rabs_triang|].
      assert (BE : 0 <= b * e) by (apply Rmult_le_pos; lra).
      apply Rle_trans with ((102 / 100 * b + 17 * u) * e); [lra|]. apply Rmult_le_compat_r; lra.
    - rewrite H, (proj1 (proj1 HZ _)). rewrite wigner_d_out by (unfold adm_b in E; lia). rewrite Rmult_0_r, Rminus_0_r, Rabs_R0. lra.
  Qed.

  (** the vectorised recursion at each ring *)
  Lemma pf_col_ok dls (ths : vec R) T L l spin : (0 <= l < L)%Z -> (0 <= T)%Z -> (Z.abs spin < L)%Z ->
    Forall2 (fun beta a => fholds L l beta a (fbound u l)) (map (vat ths) (zrange 0 T)) dls ->
    exists c, pf_col dls L 0 (L - 1 - spin) = Ok c /\ shape c = [T; 2 * L - 1]%Z /\
      forall t i, (0 <= t < T)%Z -> (0 <= i < 2 * L - 1)%Z ->
        if adm_b spin l (i - (L - 1)) then Rabs (at2 c t i - wigner_d l (i - (L - 1)) (- spin) (vat ths t)) <= fbound u l else at2 c t i = 0.
  Proof.
    intros Hl HT Hs H. unfold pf_col. rewrite norm_in by lia. eexists. split; [reflexivity|].
    assert (EL : Z.of_nat (List.length dls) = T).
    { rewrite <- (Forall2_len _ _ _ H), map_length. apply zrange_length. lia. }
    rewrite EL. replace (slice_len (2 * L - 1) 0 (2 * L - 1)) with (2 * L - 1)%Z
      by (unfold slice_len, slice_lo, clamp; repeat zif; lia).
    split; [reflexivity|]. intros t i Ht Hi. unfold at2 at 1 3. cbn [mat get nth]. unfold at2.
    replace (slice_lo (2 * L - 1) 0) with 0%Z by (unfold slice_lo, clamp; repeat zif; lia). rewrite Z.add_0_l.
    pose proof (Forall2_nth _ _ _ 0%R (zeros 0%R []) (Z.to_nat t) H) as P. rewrite map_length in P.
    pose proof (zrange_length T HT). specialize (P ltac:(lia)).
    rewrite (nth_indep _ 0%R (vat ths 0)) in P by (rewrite map_length; lia). rewrite map_nth, zrange_nth in P by lia.
    set (a := nth (Z.to_nat t) dls (zeros 0%R [])) in *.
    assert (EI : get a [i; L - 1 - spin]%Z = get a [i - (L - 1) + L - 1; - spin + L - 1]%Z) by (do 2 f_equal; [lia|f_equal; lia]). rewrite EI. clear EI.
    destruct (adm_b spin l (i - (L - 1))) eqn:E; unfold adm_b in E.
    - apply (fholds_entry L l); auto; lia.
    - apply P; lia.
  Qed.
  Lemma direct_near ths T L spin : (1 <= L)%Z -> vlen ths = T -> (0 <= T)%Z -> (Z.abs spin < L)%Z ->
    fbound u L <= 1 -> IZR (2 * L) * eta <= u -> (forall t, (0 <= t < T)%Z -> Rabs (vat ths t) <= 5) ->
    exists a, pf_direct A ths L spin 0 (2 * L - 1) = Ok a /\ dl_near a T L spin (vat ths) (fbound u).
  Proof.
    intros HL HV HT Hs HB HE Hth. unfold pf_direct. rewrite HV. cbv zeta. set (betas := map (vat ths) (zrange 0 T)).
    assert (FB : Forall (fun beta => Rabs beta <= 5) betas).
    { unfold betas. apply Forall_forall. intros b Hb. apply in_map_iff in Hb. destruct Hb as (t & <- & Ht). apply in_zrange in Ht. apply Hth. lia. }
    destruct (foldM_inv (fun el st =>
        Forall2 (fun beta dl => if (el =? 0)%Z then arr_eq dl (zeros 0%R [2 * L - 1; 2 * L - 1]%Z) else fholds L (el - 1) beta dl (fbound u (el - 1))) betas (fst st) /\
        shape (snd st) = [T; L; 2 * L - 1]%Z /\ forall t l i, (0 <= t < T)%Z -> (0 <= l < el)%Z -> (0 <= i < 2 * L - 1)%Z ->
          if adm_b spin l (i - (L - 1)) then Rabs (at3 (snd st) t l i - wigner_d l (i - (L - 1)) (- spin) (vat ths t)) <= fbound u l
          else at3 (snd st) t l i = 0)
      (fun st el =>
        let* delta := rf_full_vec A (fst st) betas L el in
        let* c := pf_col delta L 0 (L - 1 - spin) in
        let* dl := mid_set (snd st) el c in
        Ok (delta, dl)) 0 L (map (fun _ => zeros 0%R [2 * L - 1; 2 * L - 1]%Z) betas, zeros 0%R [T; L; 2 * L - 1]%Z)) as (st & E & H1 & H2 & H3).
    - lia.
    - cbn [fst snd]. split; [|split; [reflexivity|intros; lia]]. apply Forall2_map_const. intros. cbn [Z.eqb]. apply arr_eq_refl.
    - intros el [dls dl] Hel (H1 & H2 & H3). cbn [fst snd] in *.
      destruct (fvec_step A u eta L el betas HA Hel HB HE FB dls H1) as (out & -> & Ho). cbn [bind].
      destruct (pf_col_ok out ths T L el spin Hel HT Hs Ho) as (c & -> & Sc & Hc). cbn [bind].
      destruct (mid_set_ok dl c T L (2 * L - 1) _ _ el (conj H2 (fun _ _ _ _ _ _ => eq_refl)) (is_mat_self c T (2 * L - 1) Sc) Hel) as (dl' & -> & Hd). cbn [bind].
      eexists. split; [reflexivity|]. cbn [fst snd]. split; [|split; [apply Hd|]].
      + replace (el + 1 =? 0)%Z with false by lia. replace (el + 1 - 1)%Z with el by lia. exact Ho.
      + intros t l i Ht Hl Hi. rewrite (proj2 Hd) by lia. destruct (Z.eqb_spec l el) as [->|].
        * apply Hc; lia.
        * apply H3; lia.
    - rewrite E. cbn [bind]. exists (snd st). split; [reflexivity|]. split; [exact H2|]. intros. apply H3; lia.
  Qed.
End Float.
