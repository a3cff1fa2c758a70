(** Sums and products of complex numbers in rounded arithmetic. *)
From Coq Require Import Reals Lra Lia Permutation.
From Coquelicot Require Import Complex.
From Verif Require Import Lib.Py Lib.PyFacts Lib.Sums Lib.Cplx Lib.Arr Model.RisboFloat Model.Spherical Model.PrecomputeFloat
  Spec.RoundingSpec Spec.PrecomputeFloatSpec Proofs.SpectralBound.
Open Scope R_scope.

Lemma terms_pos o : (0 < List.length (terms o))%nat.
Proof. induction o; cbn [terms]; [cbn; lia|]. rewrite app_length. lia. Qed.

Section Float.
  Variables (A : arith) (u eta : R).
  Hypothesis HA : rounded A u eta.
  Hypothesis HZ : zeros_exact A.
  Let u0 : 0 <= u := rd_u _ _ _ HA.
  Let e0 : 0 <= eta := rd_eta _ _ _ HA.

  (** sums in any order *)
  Fixpoint f_sum (o : order) (x : Z -> R) : R := match o with Term i => x i | Plus a b => fadd A (f_sum a x) (f_sum b x) end.
  Lemma cf_sum_fst o x : fst (cf_sum A o x) = f_sum o (fun i => fst (x i)).
  Proof. induction o; cbn [cf_sum f_sum cf_add fst]; congruence. Qed.
  Lemma cf_sum_snd o x : snd (cf_sum A o x) = f_sum o (fun i => snd (x i)).
  Proof. induction o; cbn [cf_sum f_sum cf_add snd]; congruence. Qed.

  Lemma f_sum_err o x : 2 * u * INR (List.length (terms o)) <= 1 ->
    Rabs (f_sum o x - rsum (terms o) x) <=
      2 * u * (INR (List.length (terms o)) - 1) * rsum (terms o) (fun i => Rabs (x i)) + 2 * eta * (INR (List.length (terms o)) - 1).
  Proof.
    induction o as [i|a IHa b IHb]; intros HN; cbn [terms f_sum] in *.
    - cbn. rewrite Rplus_0_r. replace (x i - x i) with 0 by ring. rewrite Rabs_R0. lra.
    - rewrite app_length, plus_INR in *. rewrite !rs_app.
      pose proof (terms_pos a) as Pa. pose proof (terms_pos b) as Pb.
      set (na := INR (List.length (terms a))) in *. set (nb := INR (List.length (terms b))) in *.
      assert (Na : 1 <= na) by (apply (le_INR 1); lia). assert (Nb : 1 <= nb) by (apply (le_INR 1); lia).
      assert (Ha := IHa ltac:(nra)). assert (Hb := IHb ltac:(nra)). clear IHa IHb.
      assert (Qa := rs_abs (terms a) x). assert (Qb := rs_abs (terms b) x).
      set (Sa := rsum (terms a) (fun i => Rabs (x i))) in *. set (Sb := rsum (terms b) (fun i => Rabs (x i))) in *.
      set (sa := rsum (terms a) x) in *. set (sb := rsum (terms b) x) in *.
      set (fa := f_sum a x) in *. set (fb := f_sum b x) in *.
      assert (Pa' : 0 <= Sa) by (apply rs_nonneg; intros; apply Rabs_pos). assert (Pb' : 0 <= Sb) by (apply rs_nonneg; intros; apply Rabs_pos).
      pose proof (rd_add _ _ _ HA fa fb) as R1.
      set (ea := 2 * u * (na - 1) * Sa + 2 * eta * (na - 1)) in *. set (eb := 2 * u * (nb - 1) * Sb + 2 * eta * (nb - 1)) in *.
      assert (T : Rabs (fa + fb) <= Sa + Sb + ea + eb).
      { replace (fa + fb) with ((fa - sa) + (fb - sb) + sa + sb) by ring.
        eapply Rle_trans; [apply Rabs_triang|]. eapply Rle_trans; [apply Rplus_le_compat_r, Rabs_triang|].
        eapply Rle_trans; [apply Rplus_le_compat_r, Rplus_le_compat_r, Rabs_triang|]. lra. }
      assert (E : ea + eb <= 2 * u * (na + nb - 2) * (Sa + Sb) + 2 * eta * (na + nb - 2)).
      { unfold ea, eb. assert (0 <= u * (na - 1) * Sb) by (apply Rmult_le_pos; [apply Rmult_le_pos|]; lra).
        assert (0 <= u * (nb - 1) * Sa) by (apply Rmult_le_pos; [apply Rmult_le_pos|]; lra). nra. }
      replace (fadd A fa fb - (sa + sb)) with ((fadd A fa fb - (fa + fb)) + (fa - sa) + (fb - sb)) by ring.
      eapply Rle_trans; [apply Rabs_triang|]. eapply Rle_trans; [apply Rplus_le_compat_r, Rabs_triang|].
      apply Rle_trans with (u * (Sa + Sb + ea + eb) + eta + ea + eb).
      { assert (u * Rabs (fa + fb) <= u * (Sa + Sb + ea + eb)) by (now apply Rmult_le_compat_l). lra. }
      set (n := na + nb) in *. set (SS := Sa + Sb) in *. assert (0 <= SS) by (unfold SS; lra).
      assert (U : u * (2 * u * (n - 2) * SS + 2 * eta * (n - 2)) <= u * SS + eta).
      { assert (0 <= n - 2) by (unfold n; lra). assert (2 * u * (n - 2) <= 1) by nra.
        assert (u * (2 * u * (n - 2)) * SS <= u * 1 * SS) by (apply Rmult_le_compat_r; [lra|]; apply Rmult_le_compat_l; lra).
        assert (eta * (2 * u * (n - 2)) <= eta * 1) by (apply Rmult_le_compat_l; lra). nra. }
      assert (u * (ea + eb) <= u * (2 * u * (n - 2) * SS + 2 * eta * (n - 2))) by (apply Rmult_le_compat_l; lra).
      replace (u * (Sa + Sb + ea + eb)) with (u * SS + u * (ea + eb)) by (unfold SS; ring). nra.
  Qed.

  Hypothesis Hu : u <= / 1000.
  (** the product of a real and a complex number, one part *)
  Lemma mul_part x y z : z = 0 -> Rabs (fadd A (fmul A x y) z - x * y) <= (201 / 100) * u * Rabs (x * y) + (201 / 100) * eta.
  Proof.
    intros ->. pose proof (rd_mul _ _ _ HA x y) as M. pose proof (rd_add _ _ _ HA (fmul A x y) 0) as P. rewrite Rplus_0_r in P.
    assert (B : Rabs (fmul A x y) <= Rabs (x * y) + (u * Rabs (x * y) + eta)).
    { replace (fmul A x y) with (x * y + (fmul A x y - x * y)) at 1 by ring. eapply Rle_trans; [apply Rabs_triang|]. lra. }
    replace (fadd A (fmul A x y) 0 - x * y) with ((fadd A (fmul A x y) 0 - fmul A x y) + (fmul A x y - x * y)) by ring.
    eapply Rle_trans; [apply Rabs_triang|]. set (p := Rabs (x * y)) in *. assert (0 <= p) by apply Rabs_pos.
    assert (u * Rabs (fmul A x y) <= u * (p + (u * p + eta))) by (apply Rmult_le_compat_l; lra).
    assert (0 <= u * p) by (apply Rmult_le_pos; lra). assert (u * (u * p) <= / 1000 * (u * p)) by (apply Rmult_le_compat_r; lra).
    assert (u * eta <= / 1000 * eta) by (apply Rmult_le_compat_r; lra). lra.
  Qed.
  Lemma cmul_real_fst k (z : C) : Rabs (fst (cf_mul A (RtoC k) z) - k * fst z) <= (201 / 100) * u * Rabs (k * fst z) + (201 / 100) * eta.
  Proof. cbn [cf_mul fst snd RtoC]. apply mul_part. rewrite (proj1 (proj1 HZ _)). ring. Qed.
  Lemma cmul_real_snd k (z : C) : Rabs (snd (cf_mul A (RtoC k) z) - k * snd z) <= (201 / 100) * u * Rabs (k * snd z) + (201 / 100) * eta.
  Proof. cbn [cf_mul fst snd RtoC]. apply mul_part. apply (proj1 HZ). Qed.
  Lemma cmul_realr_fst k (z : C) : Rabs (fst (cf_mul A z (RtoC k)) - k * fst z) <= (201 / 100) * u * Rabs (k * fst z) + (201 / 100) * eta.
  Proof. cbn [cf_mul fst snd RtoC]. rewrite (Rmult_comm k). apply mul_part. rewrite (proj2 (proj1 HZ _)). ring. Qed.
  Lemma cmul_realr_snd k (z : C) : Rabs (snd (cf_mul A z (RtoC k)) - k * snd z) <= (201 / 100) * u * Rabs (k * snd z) + 3 * eta.
  Proof.
    cbn [cf_mul fst snd RtoC]. rewrite (proj2 (proj1 HZ (fst z))).
    pose proof (rd_mul _ _ _ HA (snd z) k) as M. pose proof (rd_add _ _ _ HA 0 (fmul A (snd z) k)) as P. rewrite Rplus_0_l in P. rewrite (Rmult_comm k).
    set (x := snd z) in *.
    assert (B : Rabs (fmul A x k) <= Rabs (x * k) + (u * Rabs (x * k) + eta)).
    { replace (fmul A x k) with (x * k + (fmul A x k - x * k)) at 1 by ring. eapply Rle_trans; [apply Rabs_triang|]. lra. }
    replace (fadd A 0 (fmul A x k) - x * k) with ((fadd A 0 (fmul A x k) - fmul A x k) + (fmul A x k - x * k)) by ring.
    eapply Rle_trans; [apply Rabs_triang|]. set (p := Rabs (x * k)) in *. assert (0 <= p) by apply Rabs_pos.
    assert (u * Rabs (fmul A x k) <= u * (p + (u * p + eta))) by (apply Rmult_le_compat_l; lra).
    assert (0 <= u * p) by (apply Rmult_le_pos; lra). assert (u * (u * p) <= / 1000 * (u * p)) by (apply Rmult_le_compat_r; lra).
    assert (u * eta <= / 1000 * eta) by (apply Rmult_le_compat_r; lra). lra.
  Qed.

  (** one part of a sum of products with a computed kernel, times a sign *)
  Section Part.
    Variables (L : Z) (o : order) (kc k W : Z -> R) (kap : R) (f : Z -> R) (g : Z -> R).
    Hypothesis HL : (1 <= L)%Z.
    Hypothesis Ho : sums_all o L.
    Hypothesis HW : forall l, (0 <= l < L)%Z -> Rabs (k l) <= W l /\ Rabs (kc l - k l) <= kap * W l.
    Hypothesis Hk : 0 <= kap <= 2.
    Hypothesis HuL : 6 * u * IZR L <= 1.
    Hypothesis Hg : forall l, (0 <= l < L)%Z -> Rabs (g l - kc l * f l) <= (201 / 100) * u * Rabs (kc l * f l) + (201 / 100) * eta.
    Let S := rsum (zrange 0 L) (fun l => W l * Rabs (f l)).
    Lemma length_o : INR (List.length (terms o)) = IZR L.
    Proof. rewrite (Permutation_length Ho), INR_IZR_INZ. f_equal. unfold zrange. rewrite map_length, seq_length. lia. Qed.
    Lemma S_nonneg : 0 <= S.
    Proof.
      unfold S. apply rs_nonneg. intros l Hl. apply in_zrange in Hl. apply Rmult_le_pos; [|apply Rabs_pos].
      eapply Rle_trans; [apply Rabs_pos|]. apply (HW l). lia.
    Qed.
    Lemma term_err l : (0 <= l < L)%Z -> Rabs (g l - k l * f l) <= (kap + 7 * u) * (W l * Rabs (f l)) + 3 * eta
      /\ Rabs (g l) <= 4 * (W l * Rabs (f l)) + 3 * eta.
    Proof.
      intros Hl. destruct (HW l Hl) as [H1 H2]. pose proof (Hg l Hl) as H3. set (w := W l) in *. set (a := Rabs (f l)) in *.
      assert (0 <= a) by apply Rabs_pos. assert (0 <= w) by (eapply Rle_trans; [apply Rabs_pos|apply H1]).
      assert (B : Rabs (kc l) <= 3 * w).
      { replace (kc l) with (k l + (kc l - k l)) by ring. eapply Rle_trans; [apply Rabs_triang|]. nra. }
      assert (B2 : Rabs (kc l * f l) <= 3 * (w * a)) by (rewrite Rabs_mult; fold a; nra).
      assert (B3 : Rabs ((kc l - k l) * f l) <= kap * (w * a)) by (rewrite Rabs_mult; fold a; nra).
      assert (B4 : Rabs (k l * f l) <= w * a) by (rewrite Rabs_mult; fold a; nra).
      assert (0 <= w * a) by nra. set (q := w * a) in *.
      assert (E : Rabs (g l - k l * f l) <= (kap + 7 * u) * q + 3 * eta).
      { replace (g l - k l * f l) with ((g l - kc l * f l) + (kc l - k l) * f l) by ring.
        eapply Rle_trans; [apply Rabs_triang|]. nra. }
      split; [exact E|]. replace (g l) with (k l * f l + (g l - k l * f l)) by ring. eapply Rle_trans; [apply Rabs_triang|]. nra.
    Qed.
    Lemma part_sum_err : Rabs (f_sum o g - rsum (zrange 0 L) (fun l => k l * f l)) <= (kap + 15 * u * IZR L) * S + 6 * IZR L * eta.
    Proof.
      pose proof S_nonneg as S0. assert (L1 : 1 <= IZR L) by (apply IZR_le; lia).
      pose proof (f_sum_err o g) as E. rewrite length_o in E. specialize (E ltac:(lra)). unfold sums_all in Ho.
      rewrite (rs_perm _ _ g Ho), (rs_perm _ _ (fun i => Rabs (g i)) Ho) in E.
      assert (E1 : Rabs (rsum (zrange 0 L) g - rsum (zrange 0 L) (fun l => k l * f l)) <= (kap + 7 * u) * S + 3 * IZR L * eta).
      { replace (rsum (zrange 0 L) g - rsum (zrange 0 L) (fun l => k l * f l)) with (rsum (zrange 0 L) (fun l => g l - k l * f l)).
        - eapply Rle_trans; [apply rs_abs|]. eapply Rle_trans; [apply rr_le; intros l Hl; apply (proj1 (term_err l Hl))|].
          rewrite rs_plus, sum_const by lia. rewrite rs_scal_l. fold S. lra.
        - rewrite (rr_ext 0 L (fun l => g l - k l * f l) (fun l => g l + (-1) * (k l * f l))) by (intros; ring).
          rewrite rs_plus, rs_scal_l. ring. }
      assert (E2 : rsum (zrange 0 L) (fun l => Rabs (g l)) <= 4 * S + 3 * IZR L * eta).
      { eapply Rle_trans; [apply rr_le; intros l Hl; apply (proj2 (term_err l Hl))|].
        rewrite rs_plus, sum_const by lia. rewrite rs_scal_l. fold S. lra. }
      set (G := rsum (zrange 0 L) (fun l => Rabs (g l))) in *. set (gs := rsum (zrange 0 L) g) in *. set (ks := rsum (zrange 0 L) (fun l => k l * f l)) in *.
      replace (f_sum o g - ks) with ((f_sum o g - gs) + (gs - ks)) by ring. eapply Rle_trans; [apply Rabs_triang|].
      assert (P : 0 <= u * (IZR L - 1)) by (apply Rmult_le_pos; lra).
      assert (E3 : 2 * u * (IZR L - 1) * G <= 2 * u * (IZR L - 1) * (4 * S + 3 * IZR L * eta)) by (apply Rmult_le_compat_l; lra).
      assert (E4 : 2 * u * (IZR L - 1) * (3 * IZR L * eta) <= IZR L * eta).
      { assert (0 <= IZR L * eta) by (apply Rmult_le_pos; lra). assert (6 * u * (IZR L - 1) <= 1) by lra. nra. }
      assert (E5 : u * S <= u * IZR L * S) by (apply Rmult_le_compat_r; [lra|]; nra).
      nra.
    Qed.
    (** multiplied by a sign *)
    Lemma part_err sg r c : Rabs sg = 1 -> 1 <= c <= 3 -> Rabs (r - sg * f_sum o g) <= (201 / 100) * u * Rabs (sg * f_sum o g) + c * eta ->
      Rabs (r - sg * rsum (zrange 0 L) (fun l => k l * f l)) <= (kap + 27 * u * IZR L) * S + 12 * IZR L * eta.
    Proof.
      intros Hs Hc Hr. pose proof part_sum_err as E. pose proof S_nonneg as S0. assert (L1 : 1 <= IZR L) by (apply IZR_le; lia).
      set (ks := rsum (zrange 0 L) (fun l => k l * f l)) in *.
      assert (K : Rabs ks <= S).
      { unfold ks, S. eapply Rle_trans; [apply rs_abs|]. apply rr_le. intros l Hl. rewrite Rabs_mult.
        apply Rmult_le_compat_r; [apply Rabs_pos|]. apply (HW l Hl). }
      set (s := f_sum o g) in *.
      assert (X : Rabs s <= (1 + kap + 15 * u * IZR L) * S + 6 * IZR L * eta).
      { replace s with (ks + (s - ks)) by ring. eapply Rle_trans; [apply Rabs_triang|]. lra. }
      assert (Y : Rabs (sg * s) = Rabs s) by (rewrite Rabs_mult, Hs; ring). rewrite Y in Hr.
      replace (r - sg * ks) with ((r - sg * s) + sg * (s - ks)) by ring. eapply Rle_trans; [apply Rabs_triang|].
      rewrite (Rabs_mult sg), Hs, Rmult_1_l.
      assert (Z1 : u * Rabs s <= u * ((1 + kap + 15 * u * IZR L) * S + 6 * IZR L * eta)) by (now apply Rmult_le_compat_l).
      assert (0 <= u * S) by (apply Rmult_le_pos; lra). assert (0 <= IZR L * eta) by (apply Rmult_le_pos; lra).
      assert (Z2' : (1 + kap + 15 * u * IZR L) * (u * S) <= (55 / 10) * (u * S)) by (apply Rmult_le_compat_r; [assumption|lra]).
      assert (Z3 : u * (6 * IZR L * eta) <= IZR L * eta) by nra.
      assert (Z4 : u * S <= u * IZR L * S) by (apply Rmult_le_compat_r; [lra|]; nra).
      assert (Z5 : 3 * eta <= 3 * (IZR L * eta)) by nra. 
      assert (Z6 : c * eta <= 3 * eta) by (apply Rmult_le_compat_r; lra). nra.
    Qed.
  End Part.
End Float.
