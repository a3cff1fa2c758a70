(** Turok & Bucher: the full matrix. *)
From Coq Require Import Reals Lra Lia ZifyBool.
From Verif Require Import Lib.Py Lib.PyFacts Lib.Sums Lib.Cplx Lib.Vec Lib.VecFacts Lib.Arr Lib.ArrFacts.
From Verif Require Import Model.Turok Spec.WignerSpec Proofs.WignerGen Proofs.WignerDh Proofs.WignerCalc
  Proofs.WignerFourier Proofs.RisboProofs Proofs.TurokProofs.
Open Scope Z_scope.

Lemma rd2 {T} (a : ndarray T) n r c : shape a = [n; n] -> 0 <= r < n -> 0 <= c < n -> aread a [r; c] = Ok (at2 a r c).
Proof. intros Hs Hr Hc. apply aread_in. rewrite Hs. now apply in_shape2. Qed.
Lemma wr2 {T} (a : ndarray T) n r c v : shape a = [n; n] -> 0 <= r < n -> 0 <= c < n ->
  exists a', awrite a [r; c] v = Ok a' /\ shape a' = [n; n]
    /\ forall p q, at2 a' p q = if (p =? r) && (q =? c) then v else at2 a p q.
Proof.
  intros Hs Hr Hc. rewrite awrite_in by (rewrite Hs; now apply in_shape2). eexists; split; [reflexivity|].
  split; [exact Hs|]. intros p q. unfold at2. cbn [get]. apply upd2.
Qed.

(** ** Coefficients *)
Lemma cp_full_ok el : 1 <= el -> exists cpi cp2, turok_cp_full el = Ok (cpi, cp2) /\ cp_good el (el + 2) cpi cp2.
Proof.
  intros Hel. unfold turok_cp_full.
  match goal with |- context [foldM ?f (zrange 1 (el + 2)) ?s0] =>
    destruct (foldM_inv (fun m s => vlen (fst s) = 2 * el + 1 /\ vlen (snd s) = 2 * el + 1
        /\ (forall k, 1 <= k < m -> vat (fst s) (k - 1) = cpi_val el k)
        /\ (forall k, 1 <= k < m -> vat (snd s) (k - 1) = (1 / cpi_val el k)%R)) f 1 (el + 2) s0)
      as ((cpi & cp) & E & H1 & H2 & H3 & H4) end.
  - lia.
  - cbn [fst snd vlen vconst]. repeat split; lia.
  - intros m (cpi, cp) Hm (H1 & H2 & H3 & H4). cbn [fst snd] in *.
    rewrite vwrite_in by lia. cbn [bind]. rewrite !vread_in by (cbn [vlen]; lia). cbn [bind vat].
    rewrite vupd_same. rewrite vwrite_in by lia. cbn [bind].
    replace (el * (el + 1) - (el - m) * (el - m + 1)) with (m * (2 * el + 1 - m)) by ring.
    eexists; split; [reflexivity|]. cbn [fst snd vlen vat]. repeat split; auto.
    + intros k Hk. destruct (Z.eq_dec k m) as [->|]; [now rewrite vupd_same|].
      rewrite vupd_other by lia. apply H3. lia.
    + intros k Hk. destruct (Z.eq_dec k m) as [->|]; [now rewrite vupd_same|].
      rewrite vupd_other by lia. apply H4. lia.
  - rewrite E. cbn [bind]. cbn [fst snd] in *.
    match goal with |- context [foldM ?f (zrange 2 (el + 2)) ?s0] =>
      destruct (foldM_inv (fun m s => vlen s = 2 * el + 1
        /\ (forall k, 2 <= k < m -> vat s (k - 1) = (cpi_val el k / cpi_val el (k - 1))%R)) f 2 (el + 2) s0)
      as (cp2 & E2 & G1 & G2) end.
    + lia.
    + cbn [vlen vconst]. repeat split; lia.
    + intros m cp2 Hm (G1 & G2). rewrite !vread_in by lia. cbn [bind]. rewrite vwrite_in by lia.
      eexists; split; [reflexivity|]. cbn [vlen vat]. split; [exact G1|]. intros k Hk.
      destruct (Z.eq_dec k m) as [->|].
      * rewrite vupd_same. replace (m - 2) with (m - 1 - 1) by lia. rewrite H3, H4 by lia.
        unfold Rdiv. ring.
      * rewrite vupd_other by lia. apply G2. lia.
    + rewrite E2. cbn [bind]. exists cpi, cp2. split; [reflexivity|]. split; intros m Hm; rewrite vread_in by lia; f_equal; auto.
Qed.

Lemma first_row_ok el x : (0 < x < PI)%R -> 1 <= el ->
  exists lfr sv, turok_first_row el (cos (x / 2)) (tan (- x / 2)) = Ok (lfr, sv)
    /\ vlen lfr = 2 * el + 1 /\ vlen sv = 2 * el + 1
    /\ forall q, 0 <= q <= 2 * el -> exp (vat lfr q) = D (2 * el) 0 q x /\ vat sv q = sgn q.
Proof.
  intros Hx Hel. destruct (half_pos x Hx) as [Hc Hs]. destruct (tan_half x Hx) as [HT HT1].
  unfold turok_first_row. rewrite !vwrite_in by (cbn [vlen vconst]; lia). cbn [bind].
  match goal with |- context [foldM ?f (zrange 2 (2 * el + 2)) ?s0] =>
    destruct (foldM_inv (fun i s => vlen (fst s) = 2 * el + 1 /\ vlen (snd s) = 2 * el + 1
      /\ forall q, 0 <= q < i - 1 -> exp (vat (fst s) q) = D (2 * el) 0 q x /\ vat (snd s) q = sgn q)
      f 2 (2 * el + 2) s0) as ((lfr & sv) & E & H1 & H2 & H3) end.
  - lia.
  - split; [reflexivity|]. split; [reflexivity|]. intros q Hq. assert (q = 0) by lia. subst q. cbn [fst snd vat].
    rewrite !vupd_same. split; [|reflexivity].
    rewrite Rabs_pos_eq by lra. rewrite <- mult_IZR, exp_mul_ln by (auto; lia).
    unfold D. rewrite dh_first by lia. rewrite Z.sub_0_r, zf_0, zpow_0.
    rewrite !Rmult_1_r. rewrite sqrt_square by (left; apply zf_pos). field. apply zf_neq.
  - intros i (lfr, sv) Hi (H1 & H2 & H3). cbn [fst snd] in *. rewrite !vread_in by lia. cbn [bind].
    rewrite vwrite_in by lia. cbn [bind]. rewrite vwrite_in by lia. cbn [bind].
    eexists; split; [reflexivity|]. cbn [fst snd vlen vat]. split; [exact H1|]. split; [exact H2|]. intros q Hq.
    destruct (Z.eq_dec q (i - 1)) as [->|].
    + rewrite !vupd_same. destruct (H3 (i - 2) ltac:(lia)) as [F1 F2]. split.
      * rewrite !exp_plus, F1.
        assert (R0 : (0 < IZR (el + 1 - i + el + 1) / IZR (el - (el + 1 - i)))%R) by (apply Rdiv_lt_0_compat; apply IZR_lt; lia).
        rewrite HT, !exp_ln by (try apply Rdiv_lt_0_compat; auto; apply sqrt_lt_R0; auto).
        unfold D. rewrite (dh_first_step _ _ (2 * el) (i - 1)) by (auto; lia).
        replace (i - 1 - 1) with (i - 2) by lia. replace (2 * el + 1 - (i - 1)) with (el + 1 - i + el + 1) by lia.
        replace (el - (el + 1 - i)) with (i - 1) by lia. reflexivity.
      * rewrite F2. unfold Rdiv in *. rewrite Rmult_assoc, HT1. replace (i - 1) with (i - 2 + 1) by lia.
        rewrite sgn_succ. ring.
    + rewrite !vupd_other by auto. apply H3. lia.
  - exists lfr, sv. split; [exact E|]. split; [exact H1|]. split; [exact H2|]. intros q Hq. apply H3. lia.
Qed.

(** ** One row *)
Section Row.
  Variables (el n N B : Z) (x : R).
  Hypothesis Hel : 1 <= el.
  Hypothesis Hn : - el <= n <= el.
  Hypothesis Hx : (0 < x < PI)%R.
  Let R0 := B + el + n.
  Hypothesis HR : 0 <= R0 < N.

  Definition row_inv (dl0 : ndarray R) (top : Z) (e : R) (dl : ndarray R) : Prop :=
    shape dl = [N; N]
    /\ (forall k, 0 <= k < top -> at2 dl R0 (B + k) = (FR el n x k * e)%R)
    /\ (forall p q, ~ (p = R0 /\ B <= q < B + top) -> at2 dl p q = at2 dl0 p q).

  Lemma row_rescale dl0 dl e m : 0 <= B -> B + m < N -> 0 <= m ->
    row_inv dl0 (m + 1) e dl ->
    exists dl', foldM (fun dl im =>
          let* y := aread dl [el + n + 1 - (1 - B); im - (1 - B)] in
          awrite dl [el + n + 1 - (1 - B); im - (1 - B)] (y * (1 / big_const))%R)
          (zrange 1 (m + 2)) dl = Ok dl'
      /\ row_inv dl0 (m + 1) (e * (1 / big_const)) dl'.
  Proof using HR.
    intros HB Hm Hm0 (H1 & H2 & H3).
    destruct (foldM_inv (fun k d => shape d = [N; N]
        /\ (forall q, 0 <= q < m + 1 -> at2 d R0 (B + q)
              = (if q <? k - 1 then FR el n x q * (e * (1 / big_const)) else FR el n x q * e)%R)
        /\ (forall p q, ~ (p = R0 /\ B <= q < B + (m + 1)) -> at2 d p q = at2 dl0 p q))
      (fun dl im =>
          let* y := aread dl [el + n + 1 - (1 - B); im - (1 - B)] in
          awrite dl [el + n + 1 - (1 - B); im - (1 - B)] (y * (1 / big_const))%R)
      1 (m + 2) dl) as (dl' & E & G1 & G2 & G3).
    - lia.
    - split; [exact H1|]. split; [|exact H3]. intros q Hq. rewrite H2 by lia. now replace (q <? 1 - 1) with false by lia.
    - intros k d Hk (G1 & G2 & G3). replace (el + n + 1 - (1 - B)) with R0 by (unfold R0; lia).
      replace (k - (1 - B)) with (B + (k - 1)) by lia.
      rewrite (rd2 d N) by (auto; lia). cbn [bind].
      destruct (wr2 d N R0 (B + (k - 1)) (at2 d R0 (B + (k - 1)) * (1 / big_const))%R G1 HR ltac:(lia)) as (d' & -> & S' & A').
      exists d'. split; [reflexivity|]. split; [exact S'|]. split.
      + intros q Hq. rewrite A', Z.eqb_refl. cbn [andb]. destruct (Z.eqb_spec (B + q) (B + (k - 1))) as [Q|].
        * replace q with (k - 1) by lia. rewrite G2 by lia. replace (k - 1 <? k - 1) with false by lia.
          replace (k - 1 <? k + 1 - 1) with true by lia. ring.
        * rewrite G2 by lia. now replace (q <? k + 1 - 1) with (q <? k - 1) by lia.
      + intros p q Hpq. rewrite A'. replace ((p =? R0) && (q =? B + (k - 1))) with false by lia. now apply G3.
    - exists dl'. split; [exact E|]. split; [exact G1|]. split; [|exact G3].
      intros q Hq. rewrite G2 by lia. now replace (q <? m + 2 - 1) with true by lia.
  Qed.

  Lemma row_ok dl cpi cp2 mtop : 0 <= B -> 2 <= mtop <= el + 1 -> B + mtop <= N -> shape dl = [N; N] ->
    cp_good el (el + 2) cpi cp2 ->
    exists dl' lr, turok_row dl cpi cp2 el (1 - B) (el + n + 1) mtop (cos x) (sin x) (1 - cos x) = Ok (dl', lr)
      /\ row_inv dl mtop (exp lr) dl'.
  Proof using Hel Hn Hx HR.
    intros HB Hmt HN Hsh [Hcpi Hcp2]. unfold turok_row.
    replace (el + n + 1 - (1 - B)) with R0 by (unfold R0; lia).
    replace (1 - (1 - B)) with B by lia. replace (2 - (1 - B)) with (B + 1) by lia.
    destruct (wr2 dl N R0 B 1%R Hsh HR ltac:(lia)) as (d1 & -> & S1 & A1). cbn [bind].
    rewrite (rd2 d1 N) by (auto; lia). cbn [bind].
    pose proof (Hcpi 1 ltac:(lia)) as C1. change (1 - 1) with 0 in C1. rewrite C1. cbn [bind].
    match goal with |- context [awrite d1 _ ?v] =>
      destruct (wr2 d1 N R0 (B + 1) v S1 HR ltac:(lia)) as (d2 & -> & S2 & A2) end. cbn [bind].
    match goal with |- context [foldM ?f (zrange 2 mtop) ?s0] =>
      destruct (foldM_inv (fun m s => row_inv dl m (exp (snd s)) (fst s)) f 2 mtop s0) as ((dl' & lr) & E & H) end.
    - lia.
    - cbn [fst snd]. rewrite exp_0. split; [exact S2|]. split.
      + intros m Hm. rewrite A2, Z.eqb_refl. cbn [andb].
        assert (m = 0 \/ m = 1) as [-> | ->] by lia.
        * replace (B + 0 =? B + 1) with false by lia. rewrite A1. replace (B + 0 =? B) with true by lia.
          rewrite Z.eqb_refl. cbn [andb]. rewrite FR_0 by auto. ring.
        * rewrite Z.eqb_refl. rewrite A1, !Z.eqb_refl. cbn [andb]. rewrite (FR_step el n x Hel Hn Hx 1) by lia.
          change (1 - 1) with 0.
          rewrite (ac_out (2 * el) (1 - 2)) by lia. rewrite FR_0 by auto.
          unfold lam, cpi_val. change (IZR 1) with 1%R. unfold Rdiv. ring.
      + intros p q Hpq. rewrite A2. replace ((p =? R0) && (q =? B + 1)) with false by lia.
        rewrite A1. now replace ((p =? R0) && (q =? B)) with false by lia.
    - intros m (d, lr) Hm (G1 & G2 & G3). cbn [fst snd] in *.
      rewrite Hcpi, Hcp2 by lia. cbn [bind].
      replace (m - (1 - B)) with (B + (m - 1)) by lia. replace (m - 1 - (1 - B)) with (B + (m - 2)) by lia.
      replace (m + 1 - (1 - B)) with (B + m) by lia.
      rewrite (rd2 d N R0 (B + (m - 1))) by (auto; lia). cbn [bind].
      rewrite (rd2 d N R0 (B + (m - 2))) by (auto; lia). cbn [bind].
      match goal with |- context [awrite d _ ?v] =>
        destruct (wr2 d N R0 (B + m) v G1 HR ltac:(lia)) as (d' & -> & S' & A') end. cbn [bind].
      rewrite (rd2 d' N) by (auto; lia). cbn [bind].
      assert (H : row_inv dl (m + 1) (exp lr) d').
      { split; [exact S'|]. split.
        - intros k Hk. rewrite A', Z.eqb_refl. cbn [andb]. destruct (Z.eqb_spec (B + k) (B + m)) as [Q|].
          + replace k with m by lia. rewrite !G2 by lia. rewrite (FR_step el n x Hel Hn Hx m) by lia.
            rewrite cpi_ratio by lia. unfold lam, cpi_val. ring.
          + apply G2. lia.
        - intros p q Hpq. rewrite A'. replace ((p =? R0) && (q =? B + m)) with false by lia. apply G3. lia. }
      destruct (Rlt_dec _ _).
      + destruct (row_rescale dl _ (exp lr) m HB ltac:(lia) ltac:(lia) H) as (d2' & E' & H').
        replace (el + n + 1 - (1 - B)) with R0 in E' by (unfold R0; lia). rewrite E'. cbn [bind].
        eexists; split; [reflexivity|]. cbn [fst snd]. unfold Rminus. now rewrite exp_plus, <- big_inv.
      + eexists; split; [reflexivity|]. exact H.
    - exists dl', lr. split; [exact E|exact H].
  Qed.
End Row.

(** ** The quarter *)
Section Quarter.
  Variables (el L : Z) (x : R).
  Hypothesis Hel : 0 <= el < L.
  Let B := L - 1 - el.
  Let N := 2 * L - 1.
  Definition kmax (q : Z) : Z := Z.min q (2 * el - q).
  (** target entry at row r, column c of the array *)
  Definition Tg (r c : Z) : R := wigner_d el (r - (L - 1)) (c - (L - 1)) x.
  Definition in_block (r c : Z) : Prop := B <= r <= B + 2 * el /\ B <= c <= B + 2 * el.
  Definition knows (K : Z -> Z -> Prop) (dl : ndarray R) : Prop :=
    shape dl = [N; N] /\ forall r c, 0 <= r < N -> 0 <= c < N -> K r c \/ ~ in_block r c -> at2 dl r c = Tg r c.

  Lemma Tg_in p k : 0 <= p <= 2 * el -> 0 <= k <= 2 * el -> Tg (B + p) (B + k) = D (2 * el) p k x.
  Proof using Hel. intros. unfold Tg, B. rewrite wig_D by lia. f_equal; lia. Qed.
  Lemma Tg_out r c : ~ in_block r c -> Tg r c = 0%R.
  Proof using Hel. intros H. unfold Tg. apply wig_out. unfold in_block, B in H. lia. Qed.

  Lemma knows_weak (K K' : Z -> Z -> Prop) dl : (forall r c, in_block r c -> K' r c -> K r c) ->
    knows K dl -> knows K' dl.
  Proof using Hel.
    intros H [H1 H2]. split; [exact H1|]. intros r c Hr Hc Q. apply H2; auto.
    assert (D0 : in_block r c \/ ~ in_block r c) by (unfold in_block; lia). destruct D0 as [I|I]; [|auto].
    left. apply H; auto. destruct Q; tauto.
  Qed.

  Definition quarter_set (r c : Z) : Prop := exists q k, r = B + q /\ c = B + k /\ 0 <= q <= 2 * el /\ 0 <= k <= kmax q.

  (** state of the recursion loops before row [index] *)
  Definition rec_inv (index : Z) (s : ndarray R * vec R) : Prop :=
    shape (fst s) = [N; N] /\ vlen (snd s) = 2 * el + 1
    /\ (forall q k, 0 <= q <= 2 * el -> q = 0 \/ q = 2 * el \/ q < index - 1 -> 0 <= k <= kmax q ->
          at2 (fst s) (B + q) (B + k) = (FR el (q - el) x k * exp (vat (snd s) q))%R)
    /\ (forall r c, ~ in_block r c -> at2 (fst s) r c = 0%R).

  Definition scale_inv (lrv : vec R) (i : Z) (dl : ndarray R) : Prop :=
    shape dl = [N; N]
    /\ (forall q k, 0 <= q <= 2 * el -> 0 <= k <= kmax q -> at2 dl (B + q) (B + k)
         = if q <? i - 1 then D (2 * el) q k x else (FR el (q - el) x k * exp (vat lrv q))%R)
    /\ (forall r c, ~ in_block r c -> at2 dl r c = 0%R).

  Lemma rec_step cpi cp2 index mtop s : 1 <= el -> (0 < x < PI)%R -> cp_good el (el + 2) cpi cp2 ->
    2 <= index <= 2 * el -> mtop = kmax (index - 1) + 1 -> rec_inv index s ->
    exists s', (let '(dl, lrenorm) := s in
        let* (dl, r) := turok_row dl cpi cp2 el (1 - B) index mtop (cos x) (sin x) (1 - cos x) in
        let* lrenorm := vwrite lrenorm (index - 1) r in
        Ok (dl, lrenorm)) = Ok s' /\ rec_inv (index + 1) s'.
  Proof using Hel.
    intros He Hx Hcp Hi -> (H1 & H2 & H3 & H4). destruct s as [dl lrv]. cbn [fst snd] in *.
    destruct (row_ok el (index - 1 - el) N B x He ltac:(lia) Hx ltac:(unfold N, B; lia) dl cpi cp2 (kmax (index - 1) + 1))
      as (d & lr & E & G1 & G2 & G3); [unfold B; lia|unfold kmax; lia|unfold kmax, B, N; lia|exact H1|exact Hcp|].
    replace (el + (index - 1 - el) + 1) with index in E by lia. rewrite E. cbn [bind].
    rewrite vwrite_in by lia. cbn [bind]. eexists; split; [reflexivity|]. cbn [fst snd vlen vat].
    replace (B + el + (index - 1 - el)) with (B + (index - 1)) in * by lia.
    unfold rec_inv. cbn [fst snd vlen vat]. split; [exact G1|]. split; [exact H2|]. split.
    - intros q k Hq Hc Hk. destruct (Z.eq_dec q (index - 1)) as [->|Hne].
      + rewrite vupd_same. rewrite G2 by lia. reflexivity.
      + rewrite vupd_other by lia. rewrite G3 by lia. apply H3; lia.
    - intros r c Hb. rewrite G3; [now apply H4|]. unfold in_block, kmax in *. lia.
  Qed.

  Lemma scale_step lrv lfr sv i jtop dl : 1 <= el -> (0 < x < PI)%R ->
    vlen lrv = 2 * el + 1 -> vlen lfr = 2 * el + 1 -> vlen sv = 2 * el + 1 ->
    (forall q, 0 <= q <= 2 * el -> exp (vat lfr q) = D (2 * el) 0 q x /\ vat sv q = sgn q) ->
    1 <= i <= 2 * el + 1 -> jtop = kmax (i - 1) + 2 -> scale_inv lrv i dl ->
    exists dl', turok_row_scale dl lfr sv lrv (1 - B) i jtop = Ok dl' /\ scale_inv lrv (i + 1) dl'.
  Proof using Hel.
    intros He Hx V1 V2 V3 Hf Hi -> (H1 & H2 & H3). unfold turok_row_scale.
    rewrite !vread_in by lia. cbn [bind]. destruct (Hf (i - 1) ltac:(lia)) as [F1 F2].
    replace (i - (1 - B)) with (B + (i - 1)) by lia.
    match goal with |- context [foldM ?f (zrange 1 ?b) dl] =>
      destruct (foldM_inv (fun j d => shape d = [N; N]
        /\ (forall k, 0 <= k <= kmax (i - 1) -> at2 d (B + (i - 1)) (B + k)
              = if k <? j - 1 then D (2 * el) (i - 1) k x else (FR el (i - 1 - el) x k * exp (vat lrv (i - 1)))%R)
        /\ (forall r c, ~ (r = B + (i - 1) /\ B <= c <= B + kmax (i - 1)) -> at2 d r c = at2 dl r c)) f 1 b dl)
        as (d & E & G1 & G2 & G3) end.
    - unfold kmax. lia.
    - split; [exact H1|]. split; [|auto]. intros k Hk. rewrite H2 by lia. replace (i - 1 <? i - 1) with false by lia.
      now replace (k <? 1 - 1) with false by lia.
    - intros j d Hj (G1 & G2 & G3). replace (j - (1 - B)) with (B + (j - 1)) by lia.
      rewrite (rd2 d N) by (auto; unfold kmax, N, B in *; lia). cbn [bind].
      match goal with |- context [awrite d ?ix ?v] =>
        destruct (wr2 d N (B + (i - 1)) (B + (j - 1)) v G1 ltac:(unfold kmax, N, B in *; lia) ltac:(unfold kmax, N, B in *; lia))
          as (d' & -> & S' & A') end.
      exists d'. split; [reflexivity|]. split; [exact S'|]. split.
      + intros k Hk. rewrite A', Z.eqb_refl. cbn [andb]. destruct (Z.eqb_spec (B + k) (B + (j - 1))) as [Q|].
        * assert (k = j - 1) by lia. subst k. replace (j - 1 <? j + 1 - 1) with true by lia. rewrite G2 by lia.
          replace (j - 1 <? j - 1) with false by lia. rewrite F2.
          rewrite Rmult_comm, Rmult_assoc, (Rmult_comm (exp _)), exp_cancel, F1.
          pose proof (FR_D0 el L x ltac:(lia) Hx (i - 1 - el) (j - 1) ltac:(lia)) as Q2.
          replace (el + (i - 1 - el)) with (i - 1) in Q2 by lia. rewrite Q2.
          rewrite (D_transpose (2 * el) (i - 1) (j - 1)) by (unfold kmax in *; lia).
          rewrite (sgn_sub (i - 1) (j - 1)). ring.
        * rewrite G2 by lia. now replace (k <? j + 1 - 1) with (k <? j - 1) by lia.
      + intros r c Hrc. rewrite A'. replace ((r =? B + (i - 1)) && (c =? B + (j - 1))) with false by lia. auto.
    - exists d. split; [exact E|]. split; [exact G1|]. split.
      + intros q k Hq Hk. destruct (Z.eq_dec q (i - 1)) as [->|Hne].
        * rewrite G2 by lia. replace (k <? kmax (i - 1) + 2 - 1) with true by lia.
          now replace (i - 1 <? i + 1 - 1) with true by lia.
        * rewrite G3 by lia. rewrite H2 by lia. now replace (q <? i + 1 - 1) with (q <? i - 1) by lia.
      + intros r c Hb. rewrite G3; [auto|]. unfold in_block, kmax in *. lia.
  Qed.

  Lemma quarter_ok : (0 < x < PI)%R -> isclose x 0 atol8 = false -> isclose x PI atol8 = false -> 1 <= el ->
    exists dl, turok_quarter (zeros 0%R [N; N]) x el L = Ok dl /\ knows quarter_set dl.
  Proof using Hel.
    intros Hx I0 I1 He. unfold turok_quarter. rewrite I0, I1. replace (el =? 0) with false by lia. fold B.
    destruct (first_row_ok el x Hx He) as (lfr & sv & -> & V1 & V2 & Hf). cbn [bind].
    destruct (cp_full_ok el He) as (cpi & cp2 & -> & Hcp). cbn [bind].
    replace (1 - (1 - B)) with B by lia. replace (2 * el + 1 - (1 - B)) with (B + 2 * el) by lia.
    destruct (wr2 (zeros 0%R [N; N]) N B B 1%R eq_refl ltac:(unfold N, B; lia) ltac:(unfold N, B; lia))
      as (d1 & -> & S1 & A1). cbn [bind].
    destruct (wr2 d1 N (B + 2 * el) B 1%R S1 ltac:(unfold N, B; lia) ltac:(unfold N, B; lia))
      as (d2 & -> & S2 & A2). cbn [bind].
    match goal with |- context [foldM ?f (zrange 2 (el + 2)) ?s0] =>
      destruct (foldM_inv rec_inv f 2 (el + 2) s0) as (s1 & -> & R1) end; [lia| |intros m [dd ll] Hm Hs; apply (rec_step cpi cp2 m _ (dd, ll)); auto; try lia|].
    { split; [exact S2|]. split; [reflexivity|]. cbn [fst snd vat vconst]. split.
      - intros q k Hq Hc Hk. assert (k = 0 /\ (q = 0 \/ q = 2 * el)) as [-> Q] by (unfold kmax in *; lia).
        rewrite exp_0, A2. rewrite FR_0 by (auto; lia). rewrite A1. unfold kmax in *. rewrite Z.add_0_r, Z.eqb_refl, !andb_true_r.
        destruct Q as [-> | ->]; rewrite ?Z.add_0_r, Z.eqb_refl; [destruct (_ =? _)|]; ring.
      - intros r c Hb. rewrite A2, A1. unfold in_block in Hb.
        replace ((r =? B + 2 * el) && (c =? B)) with false by lia. replace ((r =? B) && (c =? B)) with false by lia.
        reflexivity. }
    { unfold kmax. destruct (Z.ltb_spec 2 m); lia. }
    cbn [bind]. destruct s1 as [d3 lrv].
    match goal with |- context [foldM ?f (zrange (el + 2) (2 * el + 1)) ?s0] =>
      destruct (foldM_inv rec_inv f (el + 2) (2 * el + 1) s0) as (s1 & -> & R2) end;
      [lia|exact R1|intros m [dd ll] Hm Hs; apply (rec_step cpi cp2 m _ (dd, ll)); auto; try lia|].
    { unfold kmax. destruct (Z.ltb_spec m (2 * el)); lia. }
    cbn [bind]. destruct s1 as [d4 lrv']. destruct R2 as (T1 & T2 & T3 & T4). cbn [fst snd] in *.
    match goal with |- context [foldM ?f (zrange 1 (el + 2)) ?s0] =>
      destruct (foldM_inv (scale_inv lrv') f 1 (el + 2) s0) as (d5 & -> & U1) end;
      [lia| |intros; apply scale_step; auto; try (unfold kmax; lia)|].
    { split; [exact T1|]. split; [|exact T4]. intros q k Hq Hk. replace (q <? 1 - 1) with false by lia.
      apply T3; try lia. }
    cbn [bind].
    match goal with |- context [foldM ?f (zrange (el + 2) (2 * el + 2)) ?s0] =>
      destruct (foldM_inv (scale_inv lrv') f (el + 2) (2 * el + 2) s0) as (d6 & -> & U2) end;
      [lia|exact U1|intros; apply scale_step; auto; try (unfold kmax; lia)|].
    exists d6. split; [reflexivity|]. destruct U2 as (W1 & W2 & W3). split; [exact W1|].
    intros r c Hr Hc Q. assert (D0 : in_block r c \/ ~ in_block r c) by (unfold in_block; lia).
    destruct D0 as [I|I]; [|now rewrite W3, Tg_out].
    destruct Q as [(q & k & -> & -> & Hq & Hk)|]; [|tauto].
    rewrite W2 by lia. replace (q <? 2 * el + 2 - 1) with true by lia. rewrite Tg_in by (unfold kmax in *; lia). reflexivity.
  Qed.

  (** ** Filling in *)
  Lemma copy_known (K : Z -> Z -> Prop) dl tr tc sr sc sg :
    in_block tr tc -> in_block sr sc -> K sr sc -> Tg tr tc = (Tg sr sc * sg)%R -> knows K dl ->
    exists dl', turok_copy dl tr tc sr sc sg = Ok dl' /\ knows (fun r c => K r c \/ (r = tr /\ c = tc)) dl'.
  Proof using Hel.
    intros It Is HK HT [H1 H2]. unfold turok_copy.
    assert (Bt : 0 <= tr < N /\ 0 <= tc < N) by (unfold in_block, B, N in *; lia).
    assert (Bs : 0 <= sr < N /\ 0 <= sc < N) by (unfold in_block, B, N in *; lia).
    rewrite (rd2 dl N) by (auto; lia). cbn [bind].
    destruct (wr2 dl N tr tc (at2 dl sr sc * sg)%R H1 ltac:(lia) ltac:(lia)) as (d & E & S & A).
    exists d. split; [exact E|]. split; [exact S|]. intros r c Hr Hc Q. rewrite A.
    destruct (Z.eqb_spec r tr) as [->|]; [destruct (Z.eqb_spec c tc) as [->|]|]; cbn [andb].
    - rewrite H2 by (auto; lia). now rewrite HT.
    - apply H2; auto. destruct Q as [[|]|]; tauto.
    - apply H2; auto. destruct Q as [[|]|]; tauto.
  Qed.

  Lemma copies_known (K : Z -> Z -> Prop) dl (H0 : knows K dl) a b (f : ndarray R -> Z -> result (ndarray R)) (tr tc sr sc : Z -> Z) (sg : Z -> R) :
    (forall d j, f d j = turok_copy d (tr j) (tc j) (sr j) (sc j) (sg j)) ->
    (forall j, a <= j < b -> in_block (tr j) (tc j) /\ in_block (sr j) (sc j) /\ K (sr j) (sc j)
        /\ Tg (tr j) (tc j) = (Tg (sr j) (sc j) * sg j)%R) ->
    exists dl', foldM f (zrange a b) dl = Ok dl'
      /\ knows (fun r c => K r c \/ exists j, a <= j < b /\ r = tr j /\ c = tc j) dl'.
  Proof using Hel.
    intros Hf Hj.
    destruct (foldM_inv' (fun m d => knows (fun r c => K r c \/ exists j, a <= j < m /\ r = tr j /\ c = tc j) d) f a b dl)
      as (d & E & H).
    - eapply knows_weak; [|exact H0]. intros r c _ [|(j & Q & _)]; [auto|lia].
    - intros m d Hm H. rewrite Hf. destruct (Hj m Hm) as (Q1 & Q2 & Q3 & Q4).
      destruct (copy_known _ d _ _ _ _ _ Q1 Q2 (or_introl Q3) Q4 H) as (d' & E & H').
      exists d'. split; [exact E|]. eapply knows_weak; [|exact H']. intros r c _ [|(j & Q & W)]; [auto|].
      destruct (Z.eq_dec j m) as [->|]; [auto|]. left. right. exists j. split; [lia|exact W].
    - exists d. split; [exact E|]. eapply knows_weak; [|exact H]. intros r c _ [|(j & Q & W)]; [auto|].
      right. exists j. split; [lia|exact W].
  Qed.

  (** block coordinates *)
  Definition blk (K : Z -> Z -> Prop) (r c : Z) : Prop := K (r - B) (c - B).
  Lemma Tg_tr p k : 0 <= p <= 2 * el -> 0 <= k <= 2 * el -> Tg (B + p) (B + k) = (Tg (B + k) (B + p) * sgn (p - k))%R.
  Proof using Hel. intros. rewrite !Tg_in by lia. rewrite (D_transpose (2 * el) p k) by lia. ring. Qed.
  Lemma Tg_ft p k : 0 <= p <= 2 * el -> 0 <= k <= 2 * el ->
    Tg (B + (2 * el - p)) (B + (2 * el - k)) = (Tg (B + k) (B + p) * 1)%R.
  Proof using Hel. intros. rewrite !Tg_in by lia. rewrite Rmult_1_r. now apply dh_flip_transpose. Qed.

  Lemma fill_ok dl : knows quarter_set dl -> exists dl', turok_fill dl el L = Ok dl' /\ knows (fun _ _ => True) dl'.
  Proof using Hel.
    intros H0. unfold turok_fill. fold B.
    assert (K0 : knows (blk (fun p k => k <= p /\ k <= 2 * el - p)) dl).
    { eapply knows_weak; [|exact H0]. unfold blk, quarter_set, in_block, kmax. intros r c I Q.
      exists (r - B), (c - B). lia. }
    (* 1 *)
    match goal with |- context [bind (foldM ?f (zrange 1 (el + 1)) dl) _] =>
      destruct (foldM_inv' (fun i d => knows (blk (fun p k => (k <= p /\ k <= 2 * el - p)
         \/ (el < p /\ 2 * el - p < i - 1 /\ k <= el))) d) f 1 (el + 1) dl) as (d1 & -> & K1) end.
    { eapply knows_weak; [|exact K0]. unfold blk, in_block. lia. }
    { intros i d Hi Hk.
      destruct (copies_known _ d Hk (el + 1) (2 * el + 1 - i + 1) (fun dl j =>
        turok_copy dl (2 * el + 2 - i - (1 - B)) (2 * el + 2 - j - (1 - B)) (j - (1 - B)) (i - (1 - B)) 1%R)
        (fun j => B + (2 * el - (i - 1))) (fun j => B + (2 * el - (j - 1))) (fun j => B + (j - 1)) (fun j => B + (i - 1))
        (fun _ => 1%R)) as (d' & E & H'); [intros; f_equal; lia| |].
      - intros j Hj. unfold in_block, blk. repeat split; try lia. apply Tg_ft; lia.
      - exists d'. split; [exact E|]. eapply knows_weak; [|exact H']. unfold blk, in_block. intros r c I Q.
        destruct (Z.leb_spec (c - B) (r - B)); [|lia].
        assert (C : (c - B <= 2 * el - (r - B) \/ (el < r - B /\ 2 * el - (r - B) < i - 1)) \/
                    (2 * el - (r - B) < c - B /\ 2 * el - (r - B) = i - 1)) by lia.
        destruct C as [C|C]; [left; lia|]. right. exists (2 * el + 1 - (c - B)). lia. }
    cbn [bind]. replace (Z.max 1 (el + 1)) with (el + 1) in K1 by lia.
    (* 2 *)
    match goal with |- context [bind (foldM ?f (zrange 1 (el + 2)) d1) _] =>
      destruct (foldM_inv' (fun i d => knows (blk (fun p k => k <= el /\ (k <= p \/ p < i - 1))) d) f 1 (el + 2) d1)
        as (d2 & -> & K2) end.
    { eapply knows_weak; [|exact K1]. unfold blk, in_block. lia. }
    { intros i d Hi Hk.
      destruct (copies_known _ d Hk (i + 1) (el + 2) (fun dl j =>
        turok_copy dl (i - (1 - B)) (j - (1 - B)) (j - (1 - B)) (i - (1 - B)) (- msign (j - (i + 1)))%R)
        (fun j => B + (i - 1)) (fun j => B + (j - 1)) (fun j => B + (j - 1)) (fun j => B + (i - 1))
        (fun j => (- msign (j - (i + 1)))%R)) as (d' & E & H'); [intros; f_equal; lia| |].
      - intros j Hj. unfold in_block, blk. repeat split; try lia. rewrite Tg_tr by lia. f_equal.
        change msign with sgn. rewrite !sgn_sub, !sgn_add, sgn_1. ring.
      - exists d'. split; [exact E|]. eapply knows_weak; [|exact H']. unfold blk, in_block. intros r c I Q.
        assert (C : (c - B <= r - B \/ r - B < i - 1) \/ (r - B < c - B /\ r - B = i - 1)) by lia.
        destruct C as [C|C]; [left; lia|]. right. exists (c - B + 1). lia. }
    cbn [bind]. replace (Z.max 1 (el + 2)) with (el + 2) in K2 by lia.
    (* 3 *)
    match goal with |- context [bind (foldM ?f (zrange (el + 2) (2 * el + 2)) d2) _] =>
      destruct (foldM_inv' (fun i d => knows (blk (fun p k => k <= el \/ (k < i - 1 /\ (p <= 2 * el - k \/ k <= p)))) d)
        f (el + 2) (2 * el + 2) d2) as (d3 & -> & K3) end.
    { eapply knows_weak; [|exact K2]. unfold blk, in_block. lia. }
    { intros i d Hi Hk.
      destruct (copies_known _ d Hk 1 (2 * el + 2 - i + 1) (fun dl j =>
        turok_copy dl (j - (1 - B)) (i - (1 - B)) (i - (1 - B)) (j - (1 - B)) (msign (i + 1) * msign (j - 1))%R)
        (fun j => B + (j - 1)) (fun j => B + (i - 1)) (fun j => B + (i - 1)) (fun j => B + (j - 1))
        (fun j => (msign (i + 1) * msign (j - 1))%R)) as (d' & E & H'); [intros; f_equal; lia| |].
      - intros j Hj. unfold in_block, blk. repeat split; try lia. rewrite Tg_tr by lia. f_equal.
        change msign with sgn. rewrite !sgn_sub, !sgn_add, sgn_1. ring.
      - rewrite E. cbn [bind].
        destruct (copies_known _ d' H' i (2 * el + 2) (fun dl j =>
          turok_copy dl (j - (1 - B)) (i - (1 - B)) (2 * el + 2 - i - (1 - B)) (2 * el + 2 - j - (1 - B)) 1%R)
          (fun j => B + (j - 1)) (fun j => B + (i - 1)) (fun j => B + (2 * el - (i - 1))) (fun j => B + (2 * el - (j - 1)))
          (fun j => 1%R)) as (d'' & E' & H''); [intros; f_equal; lia| |].
        + intros j Hj. unfold in_block, blk. repeat split; try lia.
          replace (B + (j - 1)) with (B + (2 * el - (2 * el - (j - 1)))) by lia.
          replace (B + (i - 1)) with (B + (2 * el - (2 * el - (i - 1)))) by lia. apply Tg_ft; lia.
        + exists d''. split; [exact E'|]. eapply knows_weak; [|exact H'']. unfold blk, in_block. intros r c I Q.
          assert (C : (c - B <= el \/ c - B < i - 1) \/ (el < c - B /\ c - B = i - 1 /\ r - B <= 2 * el - (c - B))
             \/ (el < c - B /\ c - B = i - 1 /\ c - B <= r - B)) by lia.
          destruct C as [C|[C|C]]; [left; left; lia|left; right; exists (r - B + 1); lia|right; exists (r - B + 1); lia]. }
    cbn [bind]. replace (Z.max (el + 2) (2 * el + 2)) with (2 * el + 2) in K3 by lia.
    (* 4 *)
    match goal with |- context [foldM ?f (zrange (el + 2) (2 * el + 2)) d3] =>
      destruct (foldM_inv' (fun i d => knows (blk (fun p k => k <= el \/ p <= 2 * el - k \/ k <= p \/ k < i - 1)) d)
        f (el + 2) (2 * el + 2) d3) as (d4 & -> & K4) end.
    { eapply knows_weak; [|exact K3]. unfold blk, in_block. lia. }
    { intros i d Hi Hk.
      destruct (copies_known _ d Hk (2 * el + 3 - i) (i - 1 + 1) (fun dl j =>
          turok_copy dl (j - (1 - B)) (i - (1 - B)) (2 * el + 2 - i - (1 - B)) (2 * el + 2 - j - (1 - B)) 1%R)
          (fun j => B + (j - 1)) (fun j => B + (i - 1)) (fun j => B + (2 * el - (i - 1))) (fun j => B + (2 * el - (j - 1)))
          (fun j => 1%R)) as (d'' & E' & H''); [intros; f_equal; lia| |].
      - intros j Hj. unfold in_block, blk. repeat split; try lia.
        replace (B + (j - 1)) with (B + (2 * el - (2 * el - (j - 1)))) by lia.
        replace (B + (i - 1)) with (B + (2 * el - (2 * el - (i - 1)))) by lia. apply Tg_ft; lia.
      - exists d''. split; [exact E'|]. eapply knows_weak; [|exact H'']. unfold blk, in_block. intros r c I Q.
        assert (C : (c - B <= el \/ r - B <= 2 * el - (c - B) \/ c - B <= r - B \/ c - B < i - 1)
           \/ (2 * el - (c - B) < r - B < c - B /\ c - B = i - 1)) by lia.
        destruct C as [C|C]; [left; lia|right; exists (r - B + 1); lia]. }
    exists d4. split; [reflexivity|]. eapply knows_weak; [|exact K4]. unfold blk, in_block. lia.
  Qed.

  Lemma turok_full_ok : turok_angle x ->
    exists dl, turok_full x el L = Ok dl /\ shape dl = [2 * L - 1; 2 * L - 1]
      /\ forall r c, 0 <= r < 2 * L - 1 -> 0 <= c < 2 * L - 1 -> at2 dl r c = wigner_d el (r - (L - 1)) (c - (L - 1)) x.
  Proof using Hel.
    intros Hx. unfold turok_full. replace (L <=? el) with false by lia. fold N.
    assert (Q : exists dl, turok_quarter (zeros 0%R [N; N]) x el L = Ok dl /\ knows quarter_set dl).
    { destruct Hx as [E | [E | [Hx1 Hx2]]].
      - unfold turok_quarter. rewrite E, isclose_refl. eexists; split; [reflexivity|].
        split; [reflexivity|]. intros r c Hr Hc _. unfold turok_identity, at2, mat. cbn [get nth].
        unfold Tg. rewrite E. assert (D0 : in_block r c \/ ~ in_block r c) by (unfold in_block; lia).
        unfold in_block, B in D0. destruct D0 as [I|I].
        + replace ((L - 1 - el <=? r) && (r <? L + el) && (L - 1 - el <=? c) && (c <? L + el)) with true by lia.
          rewrite wig_0 by lia. now replace (r - (L - 1) =? c - (L - 1)) with (r =? c) by lia.
        + replace ((L - 1 - el <=? r) && (r <? L + el) && (L - 1 - el <=? c) && (c <? L + el)) with false by lia.
          rewrite wig_out by lia. reflexivity.
      - unfold turok_quarter. rewrite E, isclose_PI_0, isclose_refl.
        match goal with |- context [foldM ?f (zrange (- el) (el + 1)) ?s0] =>
          destruct (foldM_inv (fun m d => shape d = [N; N] /\ forall r c,
            at2 d r c = if (c - (L - 1) =? - (r - (L - 1))) && (Z.abs (r - (L - 1)) <=? el) && (c - (L - 1) <? m)
              then sgn (el + (c - (L - 1))) else 0%R) f (- el) (el + 1) s0) as (d & Ef & H1 & H2) end.
        + lia.
        + split; [reflexivity|]. intros r c.
          replace ((c - (L - 1) =? - (r - (L - 1))) && (Z.abs (r - (L - 1)) <=? el) && (c - (L - 1) <? - el)) with false by lia.
          reflexivity.
        + intros m d Hm (H1 & H2).
          destruct (wr2 d N (L - 1 - m) (L - 1 + m) (msign (el + m)) H1 ltac:(unfold N; lia) ltac:(unfold N; lia))
            as (d' & E' & S' & A'). exists d'. split; [exact E'|]. split; [exact S'|]. intros r c. rewrite A', H2.
          destruct (Z.eqb_spec r (L - 1 - m)) as [->|]; [destruct (Z.eqb_spec c (L - 1 + m)) as [->|]|]; cbn [andb].
          * match goal with |- context [if ?b then _ else _] => replace b with true by lia end.
            change msign with sgn. f_equal. lia.
          * match goal with |- _ = if ?b then _ else _ => replace b with false by lia end.
            match goal with |- (if ?b then _ else _) = _ => replace b with false by lia end. reflexivity.
          * match goal with |- (if ?b then _ else _) = if ?b' then _ else _ => replace b' with b by lia end. reflexivity.
        + exists d. split; [exact Ef|]. split; [exact H1|]. intros r c Hr Hc _. rewrite H2. unfold Tg. rewrite E.
          assert (D0 : in_block r c \/ ~ in_block r c) by (unfold in_block; lia).
          unfold in_block, B in D0. destruct D0 as [I|I].
          * rewrite wig_PI by lia. replace (r - (L - 1) =? - (c - (L - 1))) with (c - (L - 1) =? - (r - (L - 1))) by lia.
            replace (Z.abs (r - (L - 1)) <=? el) with true by lia. replace (c - (L - 1) <? el + 1) with true by lia.
            now rewrite !andb_true_r.
          * rewrite wig_out by lia. match goal with |- (if ?b then _ else _) = _ => replace b with false by lia end. reflexivity.
      - pose proof atol8_pos. pose proof PI_RGT_0. destruct (Z.eq_dec el 0) as [E|].
        + unfold turok_quarter. rewrite isclose_0, isclose_PI by lra. replace (el =? 0) with true by lia.
          destruct (wr2 (zeros 0%R [N; N]) N (L - 1) (L - 1) 1%R eq_refl ltac:(unfold N; lia) ltac:(unfold N; lia))
            as (d1 & -> & S1 & A1). exists d1. split; [reflexivity|]. split; [exact S1|]. intros r c Hr Hc _.
          rewrite A1. unfold Tg.
          destruct (Z.eqb_spec r (L - 1)) as [->|]; [destruct (Z.eqb_spec c (L - 1)) as [->|]|]; cbn [andb].
          * rewrite E, Z.sub_diag, wig_D by lia. unfold D. rewrite dh_first by lia.
            cbn [Z.mul Z.add Z.sub Z.opp]. rewrite zf_0, !zpow_0. rewrite !Rmult_1_r, sqrt_1. field.
          * rewrite wig_out by lia. reflexivity.
          * rewrite wig_out by lia. reflexivity.
        + apply quarter_ok; [lra|now apply isclose_0|apply isclose_PI; lra|lia]. }
    destruct Q as (d & -> & K). cbn [bind]. destruct (fill_ok d K) as (d' & -> & H1 & H2).
    exists d'. split; [reflexivity|]. split; [exact H1|]. intros r c Hr Hc. now apply H2; auto.
  Qed.
End Quarter.
