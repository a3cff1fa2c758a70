(** C10: the angle-to-pixel map. *)
From Coq Require Import Reals Lra Lia ZifyBool Psatz.
From Verif Require Import Lib.Py Lib.PyFacts Lib.Vec Lib.Cplx Lib.MatFacts
  Model.Samples Model.Grids Spec.SamplesSpec Spec.GridSpec Proofs.SamplesProofs Proofs.GridProofs.
Open Scope Z_scope.

Lemma Int_part_eq x k : (IZR k <= x < IZR k + 1)%R -> Int_part x = k.
Proof.
  intros (H1 & H2). destruct (base_Int_part x) as (A & B).
  assert (IZR (Int_part x) < IZR (k + 1))%R by (rewrite plus_IZR; lra).
  assert (IZR k < IZR (Int_part x + 1))%R by (rewrite plus_IZR; lra).
  apply lt_IZR in H, H0. lia.
Qed.
Lemma trunc_eq x k : 0 <= k -> (IZR k <= x < IZR k + 1)%R -> trunc x = k.
Proof.
  intros Hk H. unfold trunc. apply IZR_le in Hk. destruct (Rle_dec 0 x); [now apply Int_part_eq|lra].
Qed.
Lemma trunc_pos x : (0 <= x)%R -> (IZR (trunc x) <= x < IZR (trunc x) + 1)%R /\ 0 <= trunc x.
Proof.
  intros H. unfold trunc. destruct (Rle_dec 0 x); [|lra]. destruct (base_Int_part x) as (A & B). split; [lra|].
  assert (-1 < IZR (Int_part x))%R by lra. apply lt_IZR in H0. lia.
Qed.
Lemma trunc_half k : 0 <= k -> trunc (IZR k / 2) = k / 2.
Proof.
  intros Hk. assert (B := Z.mod_pos_bound k 2 ltac:(lia)). assert (D := Z.div_mod k 2 ltac:(lia)).
  apply trunc_eq; [apply Z.div_pos; lia|].
  assert (E : IZR k = (2 * IZR (k / 2) + IZR (k mod 2))%R) by (rewrite <- mult_IZR, <- plus_IZR; f_equal; lia).
  assert (0 <= IZR (k mod 2) <= 1)%R by (split; apply IZR_le; lia). lra.
Qed.

(** ** the two branches *)
Definition eq_pixel (n jp jm : Z) : Z :=
  let ir := n + 1 + jp - jm in
  2 * n * (n - 1) + 4 * n * (ir - 1) + (jp + jm - n + (if ir mod 2 =? 0 then 1 else 0) + 1) / 2.
Lemma zphi_eq n z phi jp jm : (Rabs z < 2 / 3)%R ->
  trunc (IZR n * (1 / 2 + 2 * phi / PI - 3 / 4 * z)) = jp -> trunc (IZR n * (1 / 2 + 2 * phi / PI + 3 / 4 * z)) = jm ->
  0 <= jp + jm - n + (if (n + 1 + jp - jm) mod 2 =? 0 then 1 else 0) + 1 ->
  hp_zphi2pix n z phi = eq_pixel n jp jm.
Proof.
  intros Hz Hp Hm H0. unfold hp_zphi2pix, eq_pixel. cbv zeta. destruct (Rlt_dec (Rabs z) (2 / 3)); [|lra].
  replace 0.5%R with (1 / 2)%R by lra. replace 0.75%R with (3 / 4)%R by lra.
  rewrite Hp, Hm, trunc_half by auto. lia.
Qed.

Definition cap_pixel (n ir k : Z) (north : bool) : Z :=
  if north then 2 * ir * (ir - 1) + k else 12 * n ^ 2 - 2 * ir * (ir + 1) + k.
Lemma zphi_cap n z phi jp jm k : (2 / 3 <= Rabs z)%R ->
  let tt := (2 * phi / PI)%R in let tp := (tt - IZR (trunc tt))%R in let tmp := sqrt (3 * (1 - Rabs z)) in
  trunc (IZR n * tp * tmp) = jp -> trunc (IZR n * (1 - tp) * tmp) = jm -> trunc (tt * IZR (jp + jm + 1)) = k ->
  k < 4 * (jp + jm + 1) ->
  hp_zphi2pix n z phi = cap_pixel n (jp + jm + 1) k (if Rle_dec z 0 then false else true).
Proof.
  intros Hz tt tp tmp Hp Hm Hk Hlt. unfold hp_zphi2pix, cap_pixel. cbv zeta.
  destruct (Rlt_dec (Rabs z) (2 / 3)); [lra|]. fold tt. fold tp. fold tmp. rewrite Hp, Hm, Hk. zif.
  destruct (Rle_dec z 0); lia.
Qed.

(** ** pixel centres *)
Lemma offset_half n t : 1 <= n -> 0 <= t < 4 * n - 1 -> t + 1 <= n \/ 3 * n <= t + 1 -> hp_offset n t = (1 / 2)%R.
Proof.
  intros Hn Ht H. unfold hp_offset.
  destruct ((n <=? t + 1) && (t + 1 <=? 3 * n)) eqn:E; cbn [andb]; [|reflexivity].
  assert (t + 1 - n + 1 = 1 \/ t + 1 - n + 1 = 2 * n + 1) as [-> | ->] by lia; [reflexivity|].
  rewrite Z.even_add, Z.even_mul. reflexivity.
Qed.
Lemma two_phi n t p : 1 <= n -> 0 <= t < 4 * n - 1 -> (2 * hp_longitude n t p / PI =
  4 * (IZR p + hp_offset n t) / IZR (ring_length n t))%R.
Proof.
  intros. unfold hp_longitude. field. split; [apply not_0_IZR; unfold ring_length; lia|apply PI_neq0].
Qed.

(** height of the ring number i <= n of a cap, seen from its pole *)
Lemma centre_cap n i p z phi : 1 <= n -> 1 <= i <= n -> 0 <= p < 4 * i ->
  (Rabs z = 1 - IZR (i * i) / (3 * IZR (n * n)))%R -> (2 * phi / PI = (IZR p + 1 / 2) / IZR i)%R ->
  hp_zphi2pix n z phi = cap_pixel n i p (if Rle_dec z 0 then false else true).
Proof.
  intros Hn Hi Hp Hz Hphi.
  assert (N := IZR_pos n Hn). assert (I := IZR_pos i ltac:(lia)).
  assert (IN : (IZR i <= IZR n)%R) by (apply IZR_le; lia).
  assert (Hza : (2 / 3 <= Rabs z)%R).
  { rewrite Hz, !mult_IZR. assert (IZR i * IZR i / (3 * (IZR n * IZR n)) <= 1 / 3)%R; [|lra].
    apply (Rmult_le_reg_r (3 * (IZR n * IZR n))); [nra|]. unfold Rdiv. rewrite Rmult_assoc, Rinv_l by nra. nra. }
  set (q := p mod i). set (u := p / i).
  assert (Q := Z.mod_pos_bound p i ltac:(lia)). assert (D := Z.div_mod p i ltac:(lia)). fold q u in Q, D.
  assert (U : 0 <= u) by (apply Z.div_pos; lia).
  assert (EP : IZR p = (IZR i * IZR u + IZR q)%R) by (rewrite <- mult_IZR, <- plus_IZR; f_equal; lia).
  assert (Q1 : (0 <= IZR q)%R) by (apply IZR_le; lia).
  assert (Q2 : (IZR q + 1 <= IZR i)%R) by (rewrite <- plus_IZR; apply IZR_le; lia).
  assert (T : trunc (2 * phi / PI) = u).
  { rewrite Hphi. apply trunc_eq; auto. rewrite EP.
    replace ((IZR i * IZR u + IZR q + 1 / 2) / IZR i)%R with (IZR u + (IZR q + 1 / 2) / IZR i)%R by (field; lra).
    assert (0 <= (IZR q + 1 / 2) / IZR i < 1)%R; [|lra].
    split; [apply Rmult_le_pos; [lra|left; now apply Rinv_0_lt_compat]|].
    apply (Rmult_lt_reg_r (IZR i)); [lra|]. unfold Rdiv. rewrite Rmult_assoc, Rinv_l by lra. lra. }
  assert (S : sqrt (3 * (1 - Rabs z)) = (IZR i / IZR n)%R).
  { rewrite Hz. replace (3 * (1 - (1 - IZR (i * i) / (3 * IZR (n * n)))))%R with ((IZR i / IZR n) * (IZR i / IZR n))%R
      by (rewrite !mult_IZR; field; lra).
    apply sqrt_square. apply Rmult_le_pos; [lra|left; now apply Rinv_0_lt_compat]. }
  replace i with (q + (i - 1 - q) + 1) at 1 by lia.
  apply zphi_cap; auto.
  - rewrite T, S, Hphi. apply trunc_eq; [lia|].
    replace (IZR n * ((IZR p + 1 / 2) / IZR i - IZR u) * (IZR i / IZR n))%R with (IZR q + 1 / 2)%R; [lra|].
    rewrite EP. field. lra.
  - rewrite T, S, Hphi. apply trunc_eq; [lia|].
    replace (IZR n * (1 - ((IZR p + 1 / 2) / IZR i - IZR u)) * (IZR i / IZR n))%R with (IZR (i - 1 - q) + 1 / 2)%R; [lra|].
    rewrite EP, !minus_IZR. field. lra.
  - rewrite Hphi. replace (q + (i - 1 - q) + 1) with i by lia. apply trunc_eq; [lia|].
    replace ((IZR p + 1 / 2) / IZR i * IZR i)%R with (IZR p + 1 / 2)%R by (field; lra). lra.
  - lia.
Qed.

Lemma centre_eq n t p z phi : 1 <= n -> n < t + 1 < 3 * n -> 0 <= p ->
  (z = 4 / 3 - 2 * IZR (t + 1) / (3 * IZR n))%R -> (2 * phi / PI = (IZR p + hp_offset n t) / IZR n)%R ->
  hp_zphi2pix n z phi = 2 * n * (n - 1) + 4 * n * (t + 1 - n) + p.
Proof.
  intros Hn Ht Hp Hz Hphi. assert (N := IZR_pos n Hn).
  assert (Ha : (IZR n + 1 <= IZR (t + 1))%R) by (rewrite <- plus_IZR; apply IZR_le; lia).
  assert (Hb : (IZR (t + 1) + 1 <= 3 * IZR n)%R) by (rewrite <- plus_IZR, <- mult_IZR; apply IZR_le; lia).
  set (i := t + 1) in *. set (k := (i - n) / 2). set (k' := (3 * n - i) / 2).
  assert (K : i - n = 2 * k + (if Z.even (i - n) then 0 else 1)) by (rewrite <- mod2; apply Z.div_mod; lia).
  assert (K' : 3 * n - i = 2 * k' + (if Z.even (i - n) then 0 else 1)).
  { replace (Z.even (i - n)) with (Z.even (3 * n - i)); [rewrite <- mod2; apply Z.div_mod; lia|].
    replace (3 * n - i) with (2 * n - (i - n)) by lia. rewrite (Z.even_sub (2 * n)), Z.even_mul. cbn [Z.even orb]. now destruct (Z.even (i - n)). }
  assert (O : hp_offset n t = if Z.even (i - n) then (1 / 2)%R else 0%R).
  { unfold hp_offset. fold i. replace ((n <=? i) && (i <=? 3 * n)) with true by lia. cbn [andb].
    rewrite Z.even_add. now destruct (Z.even (i - n)). }
  assert (Hza : (Rabs z < 2 / 3)%R).
  { apply Rabs_def1; rewrite Hz; apply (Rmult_lt_reg_r (3 * IZR n)); try lra;
      replace ((4 / 3 - 2 * IZR i / (3 * IZR n)) * (3 * IZR n))%R with (4 * IZR n - 2 * IZR i)%R by (field; lra); lra. }
  assert (RK : (IZR i - IZR n = 2 * IZR k + (if Z.even (i - n) then 0 else 1))%R)
    by (assert (X := f_equal IZR K); rewrite minus_IZR, plus_IZR, mult_IZR in X; rewrite X; now destruct (Z.even (i - n))).
  assert (RK' : (3 * IZR n - IZR i = 2 * IZR k' + (if Z.even (i - n) then 0 else 1))%R)
    by (assert (X := f_equal IZR K'); rewrite minus_IZR, plus_IZR, !mult_IZR in X; rewrite X; now destruct (Z.even (i - n))).
  assert (k0 : 0 <= k) by (apply Z.div_pos; lia). assert (k0' : 0 <= k') by (apply Z.div_pos; lia).
  assert (IR : n + 1 + (p + k) - (p + k') = i - n + 1) by lia.
  assert (SH : (if (i - n + 1) mod 2 =? 0 then 1 else 0) = (if Z.even (i - n) then 0 else 1)).
  { rewrite mod2, Z.even_add. now destruct (Z.even (i - n)). }
  rewrite (zphi_eq n z phi (p + k) (p + k')); auto.
  - unfold eq_pixel. cbv zeta. rewrite IR, SH.
    replace (p + k + (p + k') - n + (if Z.even (i - n) then 0 else 1) + 1) with (1 + p * 2) by (destruct (Z.even (i - n)); lia).
    rewrite Z.div_add by lia. change (1 / 2) with 0. lia.
  - apply trunc_eq; [lia|]. rewrite Hphi, O, Hz, plus_IZR.
    replace (IZR n * (1 / 2 + (IZR p + (if Z.even (i - n) then 1 / 2 else 0)) / IZR n - 3 / 4 * (4 / 3 - 2 * IZR i / (3 * IZR n))))%R
      with (IZR p + (if Z.even (i - n) then 1 / 2 else 0) + (IZR i - IZR n) / 2)%R by (field; lra).
    rewrite RK. destruct (Z.even (i - n)); lra.
  - apply trunc_eq; [lia|]. rewrite Hphi, O, Hz, plus_IZR.
    replace (IZR n * (1 / 2 + (IZR p + (if Z.even (i - n) then 1 / 2 else 0)) / IZR n + 3 / 4 * (4 / 3 - 2 * IZR i / (3 * IZR n))))%R
      with (IZR p + (if Z.even (i - n) then 1 / 2 else 0) + (3 * IZR n - IZR i) / 2)%R by (field; lra).
    rewrite RK'. destruct (Z.even (i - n)); lra.
  - rewrite IR, SH. destruct (Z.even (i - n)); lia.
Qed.

Lemma centre_lemma n t p theta : 1 <= n -> 0 <= t < 4 * n - 1 -> 0 <= p < ring_length n t -> cos theta = hp_height n t ->
  hp_ang2pix n theta (hp_longitude n t p) = ring_start (ring_length n) t + p.
Proof.
  intros Hn Ht Hp Hth. unfold hp_ang2pix. rewrite Hth.
  assert (N := IZR_pos n Hn). assert (B := height_bound n t Hn Ht).
  assert (RL := ring_len n t Hn Ht). assert (TP := two_phi n t p Hn Ht).
  destruct (Z_le_gt_dec (t + 1) n) as [A|A].
  - (* north cap, including the boundary ring *)
    assert (EL : ring_length n t = 4 * (t + 1)) by (rewrite RL; destruct (Z.ltb_spec (t + 1) n); [reflexivity|zif; lia]).
    assert (EH : hp_height n t = (1 - IZR ((t + 1) * (t + 1)) / (3 * IZR (n * n)))%R).
    { unfold hp_height. destruct (Z.ltb_spec (t + 1) n); [reflexivity|]. zif. assert (t + 1 = n) as -> by lia. rewrite mult_IZR. field. lra. }
    assert (POS : (0 < hp_height n t)%R).
    { destruct (Z.eq_dec (t + 1) n) as [E|]; [|destruct (height_cap n t Hn ltac:(lia) ltac:(lia)); lra].
      rewrite EH, E, mult_IZR. replace (1 - IZR n * IZR n / (3 * (IZR n * IZR n)))%R with (2 / 3)%R by (field; lra). lra. }
    rewrite (centre_cap n (t + 1) p); auto; try lia.
    + destruct (Rle_dec (hp_height n t) 0); [lra|]. unfold cap_pixel. rewrite ring_start_north by lia. lia.
    + now rewrite Rabs_pos_eq by lra.
    + rewrite TP, EL, (offset_half n t), mult_IZR by lia. field. apply not_0_IZR. lia.
  - destruct (Z_lt_le_dec (t + 1) (3 * n)) as [A'|A'].
    + assert (EL : ring_length n t = 4 * n) by (rewrite RL; repeat zif; reflexivity).
      rewrite (centre_eq n t p); auto; try lia.
      * replace t with (n - 1 + (t + 1 - n)) at 2 by lia. rewrite ring_start_equator by lia. lia.
      * unfold hp_height. repeat zif. reflexivity.
      * rewrite TP, EL, mult_IZR. field. lra.
    + set (i := 4 * n - 1 - t).
      assert (EL : ring_length n t = 4 * i) by (rewrite RL; zif; destruct (Z.leb_spec (t + 1) (3 * n)); unfold i; lia).
      assert (EH : hp_height n t = (- (1 - IZR (i * i) / (3 * IZR (n * n))))%R).
      { unfold hp_height. zif. destruct (Z.leb_spec (t + 1) (3 * n)); [|reflexivity].
        assert (E : t + 1 = 3 * n) by lia. replace i with n by (unfold i; lia). rewrite E, !mult_IZR. field. lra. }
      assert (NEG : (hp_height n t < 0)%R).
      { destruct (Z.eq_dec (t + 1) (3 * n)) as [E|]; [|destruct (height_south n t Hn ltac:(lia) ltac:(lia)); lra].
        rewrite EH. replace i with n by (unfold i; lia). rewrite mult_IZR.
        replace (1 - IZR n * IZR n / (3 * (IZR n * IZR n)))%R with (2 / 3)%R by (field; lra). lra. }
      rewrite (centre_cap n i p); auto; try (unfold i; lia).
      * destruct (Rle_dec (hp_height n t) 0); [|lra]. unfold cap_pixel.
        destruct (Z.eq_dec (t + 1) (3 * n)) as [E|].
        -- replace t with (n - 1 + 2 * n) at 1 by lia. rewrite ring_start_equator by lia. replace i with n by (unfold i; lia). lia.
        -- replace t with (3 * n + (t - 3 * n)) at 1 by lia. rewrite ring_start_south by (unfold i in *; lia). unfold i. nia.
      * rewrite Rabs_left by lra. rewrite EH. ring.
      * rewrite TP, EL, (offset_half n t), mult_IZR by lia. field. apply not_0_IZR. unfold i. lia.
Qed.

(** ** every position gets a pixel number in range *)
Lemma range_lemma n theta phi : 1 <= n -> (0 <= phi < 2 * PI)%R -> 0 <= hp_ang2pix n theta phi < 12 * (n * n).
Proof.
  intros Hn Hphi. unfold hp_ang2pix. set (z := cos theta). assert (Hz : (-1 <= z <= 1)%R) by apply COS_bound.
  assert (N := IZR_pos n Hn). pose proof PI_RGT_0 as PI0. assert (N1 : (1 <= IZR n)%R) by (apply (IZR_le 1); lia).
  set (tt := (2 * phi / PI)%R). assert (T : (0 <= tt < 4)%R).
  { unfold tt. split; [apply Rmult_le_pos; [lra|left; now apply Rinv_0_lt_compat]|].
    apply (Rmult_lt_reg_r PI); auto. unfold Rdiv. rewrite Rmult_assoc, Rinv_l by lra. lra. }
  destruct (Rlt_dec (Rabs z) (2 / 3)) as [Hz1|Hz1].
  - apply Rabs_def2 in Hz1. set (A := (IZR n * (1 / 2 + tt - 3 / 4 * z))%R). set (B := (IZR n * (1 / 2 + tt + 3 / 4 * z))%R).
    assert (HA : (0 <= A)%R) by (apply Rmult_le_pos; lra). assert (HB : (0 <= B)%R) by (apply Rmult_le_pos; lra).
    destruct (trunc_pos A HA) as (TA & A0), (trunc_pos B HB) as (TB & B0).
    set (jp := trunc A) in *. set (jm := trunc B) in *.
    assert (S : (A + B = IZR n * (1 + 2 * tt))%R) by (unfold A, B; lra).
    assert (Df : (A - B = - (3 / 2 * (IZR n * z)))%R) by (unfold A, B; lra).
    assert (S1 : n - 2 < jp + jm) by (apply lt_IZR; rewrite minus_IZR, plus_IZR; nra).
    assert (S2 : jp + jm < 9 * n) by (apply lt_IZR; rewrite mult_IZR, plus_IZR; nra).
    assert (D1 : jp - jm < n + 1) by (apply lt_IZR; rewrite minus_IZR, plus_IZR; nra).
    assert (D2 : - n - 1 < jp - jm) by (apply lt_IZR; rewrite !minus_IZR, opp_IZR; nra).
    rewrite (zphi_eq n z phi jp jm); auto.
    + unfold eq_pixel. cbv zeta. set (ks := if (n + 1 + jp - jm) mod 2 =? 0 then 1 else 0).
      assert (K : 0 <= ks <= 1) by (unfold ks; destruct (Z.eqb_spec ((n + 1 + jp - jm) mod 2) 0); lia).
      assert (X := Z.div_mod (jp + jm - n + ks + 1) 2 ltac:(lia)). assert (Y := Z.mod_pos_bound (jp + jm - n + ks + 1) 2 ltac:(lia)).
      set (h := (jp + jm - n + ks + 1) / 2) in *.
      split; [nia|]. destruct (Z.eq_dec n 1) as [->|]; [|nia].
      destruct (Z.eq_dec (jp - jm) 1); [|nia].
      assert (ks = 0). { unfold ks. replace (1 + 1 + jp - jm) with 3 by lia. reflexivity. } nia.
    + apply Rabs_def1; lra.
    + destruct (Z.eqb_spec ((n + 1 + jp - jm) mod 2) 0); lia.
  - apply Rnot_lt_le in Hz1. set (tmp := sqrt (3 * (1 - Rabs z))).
    assert (Za : (Rabs z <= 1)%R) by (apply Rabs_le; lra).
    assert (TM : (0 <= tmp <= 1)%R).
    { split; [apply sqrt_pos|]. unfold tmp. rewrite <- sqrt_1 at 2. apply sqrt_le_1_alt. lra. }
    destruct (trunc_pos tt (proj1 T)) as (TT & T0). set (tp := (tt - IZR (trunc tt))%R).
    assert (TP : (0 <= tp < 1)%R) by (unfold tp; lra).
    assert (HA : (0 <= IZR n * tp * tmp)%R) by (repeat apply Rmult_le_pos; lra).
    assert (HB : (0 <= IZR n * (1 - tp) * tmp)%R) by (repeat apply Rmult_le_pos; lra).
    destruct (trunc_pos _ HA) as (TA & A0), (trunc_pos _ HB) as (TB & B0).
    set (jp := trunc (IZR n * tp * tmp)) in *. set (jm := trunc (IZR n * (1 - tp) * tmp)) in *.
    assert (S : jp + jm <= n).
    { apply le_IZR. rewrite plus_IZR. assert (IZR n * tp * tmp + IZR n * (1 - tp) * tmp = IZR n * tmp)%R by ring. nra. }
    assert (IR := IZR_pos (jp + jm + 1) ltac:(lia)).
    assert (HC : (0 <= tt * IZR (jp + jm + 1))%R) by (apply Rmult_le_pos; lra).
    destruct (trunc_pos _ HC) as (TC & C0). set (k := trunc (tt * IZR (jp + jm + 1))) in *.
    assert (KL : k < 4 * (jp + jm + 1)) by (apply lt_IZR; rewrite mult_IZR; nra).
    rewrite (zphi_cap n z phi jp jm k); auto.
    unfold cap_pixel. rewrite Z.pow_2_r. destruct (Rle_dec z 0); split; nia.
Qed.

(** ** positions just below 2 pi on an equatorial ring *)
Lemma wrap_lemma n d : 1 <= n -> (0 < d < PI / IZR (4 * n))%R ->
  forall theta, cos theta = hp_height n n ->
  hp_ang2pix n theta (2 * PI - d) = ring_start (ring_length n) n + ring_length n n.
Proof.
  intros Hn Hd theta Hth. unfold hp_ang2pix. rewrite Hth. assert (N := IZR_pos n Hn). pose proof PI_RGT_0 as PI0.
  assert (N1 : (1 <= IZR n)%R) by (apply (IZR_le 1); lia).
  assert (EH : hp_height n n = (4 / 3 - 2 * (IZR n + 1) / (3 * IZR n))%R) by (unfold hp_height; repeat zif; now rewrite plus_IZR).
  set (e := (2 * d / PI * IZR n)%R).
  assert (E : (0 < e < 1 / 2)%R).
  { unfold e. rewrite mult_IZR in Hd. split.
    - apply Rmult_lt_0_compat; [|lra]. apply Rdiv_lt_0_compat; lra.
    - apply (Rmult_lt_reg_r (PI / (2 * IZR n))); [apply Rdiv_lt_0_compat; lra|].
      replace (2 * d / PI * IZR n * (PI / (2 * IZR n)))%R with d by (field; lra).
      replace (1 / 2 * (PI / (2 * IZR n)))%R with (PI / (4 * IZR n))%R by (field; lra). lra. }
  rewrite (zphi_eq n _ _ (4 * n) (5 * n - 1)).
  - unfold eq_pixel. cbv zeta. replace (n + 1 + 4 * n - (5 * n - 1)) with 2 by lia. change (2 mod 2 =? 0) with true. cbv iota.
    replace (4 * n + (5 * n - 1) - n + 1 + 1) with (1 + 4 * n * 2) by lia. rewrite Z.div_add by lia. change (1 / 2) with 0.
    replace (ring_start (ring_length n) n) with (ring_start (ring_length n) (n - 1 + 1)) by (f_equal; lia).
    rewrite ring_start_equator, ring_len by lia. repeat zif. lia.
  - rewrite EH. apply Rabs_def1; apply (Rmult_lt_reg_r (3 * IZR n)); try lra;
      replace ((4 / 3 - 2 * (IZR n + 1) / (3 * IZR n)) * (3 * IZR n))%R with (2 * IZR n - 2)%R by (field; lra); lra.
  - rewrite EH. apply trunc_eq; [lia|].
    replace (IZR n * (1 / 2 + 2 * (2 * PI - d) / PI - 3 / 4 * (4 / 3 - 2 * (IZR n + 1) / (3 * IZR n))))%R with (4 * IZR n - e + 1 / 2)%R
      by (unfold e; field; lra). rewrite mult_IZR. lra.
  - rewrite EH. apply trunc_eq; [lia|].
    replace (IZR n * (1 / 2 + 2 * (2 * PI - d) / PI + 3 / 4 * (4 / 3 - 2 * (IZR n + 1) / (3 * IZR n))))%R with (5 * IZR n - e - 1 / 2)%R
      by (unfold e; field; lra). rewrite minus_IZR, mult_IZR. lra.
  - replace (n + 1 + 4 * n - (5 * n - 1)) with 2 by lia. change (2 mod 2 =? 0) with true. cbv iota. lia.
Qed.
