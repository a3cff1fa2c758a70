From Coq Require Import ZifyBool Psatz FinFun.
From Verif Require Import Lib.Py Lib.PyFacts Model.Index Spec.IndexSpec.
Open Scope Z_scope.
Set Default Proof Using "Type".

(** ** C01: the 1D harmonic index *)
Lemma ncoeff_eq L : ncoeff L = L * L.
Proof. unfold ncoeff, elm2ind. nia. Qed.

Lemma elm2ind_sqrt el m : 0 <= el -> - el <= m <= el -> Z.sqrt (elm2ind el m) = el.
Proof. intros H1 H2. apply Z.sqrt_unique. unfold elm2ind. nia. Qed.

Lemma ind2elm_elm2ind el m : 0 <= el -> - el <= m <= el -> ind2elm (elm2ind el m) = (el, m).
Proof.
  intros H1 H2. unfold ind2elm. rewrite elm2ind_sqrt by assumption.
  f_equal. unfold elm2ind. lia.
Qed.

Lemma ind2elm_valid L k : 1 <= L -> 0 <= k < L * L ->
  valid_lm L (fst (ind2elm k)) (snd (ind2elm k)) /\
  elm2ind (fst (ind2elm k)) (snd (ind2elm k)) = k.
Proof.
  intros HL Hk. unfold ind2elm, elm2ind, valid_lm. cbn [fst snd].
  pose proof (Z.sqrt_spec k (proj1 Hk)) as Hs. pose proof (Z.sqrt_nonneg k).
  set (s := Z.sqrt k) in *. clearbody s. unfold Z.succ in Hs.
  assert (s < L) by nia. repeat split; try lia; nia.
Qed.

Lemma elm2ind_range L el m : valid_lm L el m -> 0 <= elm2ind el m < L * L.
Proof. unfold valid_lm, elm2ind. nia. Qed.

Lemma elm2ind_inj el m el' m' :
  0 <= el -> - el <= m <= el -> 0 <= el' -> - el' <= m' <= el' ->
  elm2ind el m = elm2ind el' m' -> el = el' /\ m = m'.
Proof.
  intros H1 H2 H3 H4 E.
  pose proof (ind2elm_elm2ind el m H1 H2) as A1.
  pose proof (ind2elm_elm2ind el' m' H3 H4) as A2.
  rewrite E in A1. rewrite A1 in A2. injection A2; auto.
Qed.

Lemma elm2ind_bijection L : 1 <= L -> bijection2 (valid_lm L) elm2ind (L * L).
Proof.
  intros HL. split; [|split].
  - intros; now apply elm2ind_range.
  - intros el m el' m' [? ?] [? ?]. apply elm2ind_inj; lia.
  - intros k Hk. exists (fst (ind2elm k)), (snd (ind2elm k)). now apply ind2elm_valid.
Qed.

(** ** the loops over degree and order *)
Definition lm_pairs (L : Z) : list (Z * Z) :=
  flat_map (fun el => map (fun m => (el, m)) (zrange (- el) (el + 1))) (zrange 0 L).
Definition lm_pairs_pos (L : Z) : list (Z * Z) :=
  flat_map (fun el => map (fun m => (el, m)) (zrange 0 (el + 1))) (zrange 0 L).

Lemma in_lm_pairs L el m : In (el, m) (lm_pairs L) <-> valid_lm L el m.
Proof. unfold lm_pairs, valid_lm. rewrite in_flat_map_pairs, !in_zrange. lia. Qed.
Lemma in_lm_pairs_pos L el m : In (el, m) (lm_pairs_pos L) <-> valid_lm_pos L el m.
Proof. unfold lm_pairs_pos, valid_lm_pos. rewrite in_flat_map_pairs, !in_zrange. lia. Qed.
Lemma lm_pairs_NoDup L : NoDup (lm_pairs L).
Proof. apply NoDup_flat_map_pairs; intros; apply zrange_NoDup. Qed.
Lemma lm_pairs_pos_NoDup L : NoDup (lm_pairs_pos L).
Proof. apply NoDup_flat_map_pairs; intros; apply zrange_NoDup. Qed.

Ltac shp := cbn [shape flm_shape in_shape zeros fst snd get]; lia.
Ltac inj_list H := injection H; clear H; intros; subst.

  (** every in-range column is some order m *)
  Lemma idx2_split L (idx : list Z) : in_shape (flm_shape L) idx ->
    exists el m, idx = [el; L - 1 + m] /\ 0 <= el < L /\ - L < m < L.
  Proof.
    destruct idx as [|el [|c [|]]]; cbn [in_shape flm_shape]; try tauto. intros (H1 & H2 & _).
    exists el, (c - (L - 1)). repeat split; try lia. do 2 f_equal. lia.
  Qed.

Section R.
  Context {A : Type} (zero : A).

  Lemma flm_2d_to_1d_spec (f : ndarray A) L : 1 <= L -> shape f = flm_shape L ->
    exists o, flm_2d_to_1d zero f L = Ok o /\ shape o = [L * L] /\
      forall el m, valid_lm L el m -> get o [elm2ind el m] = get f [el; L - 1 + m].
  Proof.
    intros HL Hs. unfold flm_2d_to_1d. rewrite Hs. cbn [flm_shape List.length Nat.eqb negb].
    rewrite foldM_nested. fold (lm_pairs L).
    destruct (write_loop (fun p => [elm2ind (fst p) (snd p)])
        (fun p => get f [fst p; L - 1 + snd p])
        (fun out p => let* v := aread f [fst p; L - 1 + snd p] in
                      awrite out [elm2ind (fst p) (snd p)] v)
        (lm_pairs L) (zeros zero [ncoeff L])) as (o & E & S1 & G1 & G2).
    - intros a' [el m] _ Hin. cbn [fst snd]. apply in_lm_pairs in Hin. unfold valid_lm in Hin.
      rewrite aread_in; [reflexivity|]. rewrite Hs. shp.
    - intros [el m] Hin. apply in_lm_pairs in Hin. cbn [fst snd shape zeros in_shape].
      rewrite ncoeff_eq. pose proof (elm2ind_range L el m Hin). lia.
    - apply lm_pairs_NoDup.
    - intros [el m] [el' m'] H1 H2 Heq. apply in_lm_pairs in H1, H2. unfold valid_lm in *.
      cbn [fst snd] in Heq. injection Heq as Heq.
      destruct (elm2ind_inj el m el' m') as [-> ->]; auto; lia.
    - exists o. rewrite E. cbn [shape zeros] in S1. rewrite ncoeff_eq in S1. repeat split; auto.
      intros el m H. apply (G1 (el, m)). now apply in_lm_pairs.
  Qed.

  Lemma flm_1d_to_2d_spec (f : ndarray A) L : 1 <= L -> shape f = [L * L] ->
    exists o, flm_1d_to_2d zero f L = Ok o /\ shape o = flm_shape L /\
      (forall el m, valid_lm L el m -> get o [el; L - 1 + m] = get f [elm2ind el m]) /\
      triangular zero L o.
  Proof.
    intros HL Hs. unfold flm_1d_to_2d. rewrite Hs. cbn [List.length Nat.eqb negb].
    rewrite foldM_nested. fold (lm_pairs L).
    destruct (write_loop (fun p => [fst p; L - 1 + snd p])
        (fun p => get f [elm2ind (fst p) (snd p)])
        (fun out p => let* v := aread f [elm2ind (fst p) (snd p)] in
                      awrite out [fst p; L - 1 + snd p] v)
        (lm_pairs L) (zeros zero (flm_shape L))) as (o & E & S1 & G1 & G2).
    - intros a' [el m] _ Hin. cbn [fst snd]. apply in_lm_pairs in Hin.
      rewrite aread_in; [reflexivity|]. rewrite Hs. cbn.
      pose proof (elm2ind_range L el m Hin). lia.
    - intros [el m] Hin. apply in_lm_pairs in Hin. unfold valid_lm in Hin.
      shp.
    - apply lm_pairs_NoDup.
    - intros [el m] [el' m'] H1 H2 Heq. cbn [fst snd] in Heq. injection Heq as H3 H4.
      f_equal; lia.
    - exists o. rewrite E. cbn [shape zeros] in S1. repeat split; auto.
      + intros el m H. apply (G1 (el, m)). now apply in_lm_pairs.
      + intros el m H1 H2 H3. rewrite G2; [reflexivity|].
        intros [el' m'] Hin Heq. cbn [fst snd] in Heq. injection Heq as H4 H5.
        apply H3. apply in_lm_pairs. replace m with m' by lia. now subst el'.
  Qed.

  Lemma roundtrip_1d (f : ndarray A) L : 1 <= L -> shape f = [L * L] ->
    exists g h, flm_1d_to_2d zero f L = Ok g /\ flm_2d_to_1d zero g L = Ok h /\ arr_eq h f.
  Proof.
    intros HL Hs.
    destruct (flm_1d_to_2d_spec f L HL Hs) as (g & E1 & S1 & G1 & T1).
    destruct (flm_2d_to_1d_spec g L HL S1) as (h & E2 & S2 & G2).
    exists g, h. repeat split; auto; [congruence|].
    intros idx Hin. rewrite S2 in Hin. destruct idx as [|k [|]]; cbn [in_shape] in Hin; try tauto.
    destruct (ind2elm_valid L k HL (proj1 Hin)) as [Hv Hk].
    rewrite <- Hk. rewrite (G2 _ _ Hv). apply G1; auto.
  Qed.

  Lemma roundtrip_2d (f : ndarray A) L : 1 <= L -> shape f = flm_shape L ->
    exists g h, flm_2d_to_1d zero f L = Ok g /\ flm_1d_to_2d zero g L = Ok h /\
      shape h = flm_shape L /\
      (forall el m, valid_lm L el m -> get h [el; L - 1 + m] = get f [el; L - 1 + m]) /\
      triangular zero L h /\
      (arr_eq h f <-> triangular zero L f).
  Proof.
    intros HL Hs.
    destruct (flm_2d_to_1d_spec f L HL Hs) as (g & E1 & S1 & G1).
    destruct (flm_1d_to_2d_spec g L HL S1) as (h & E2 & S2 & G2 & T2).
    assert (G : forall el m, valid_lm L el m -> get h [el; L - 1 + m] = get f [el; L - 1 + m]).
    { intros el m Hv. rewrite (G2 _ _ Hv). auto. }
    exists g, h. do 5 (split; [auto|]). split.
    - intros [_ He] el m H1 H2 H3. rewrite <- He; [now apply T2|].
      rewrite S2. shp.
    - intros T. split; [congruence|]. intros idx Hin. rewrite S2 in Hin.
      destruct (idx2_split L idx Hin) as (el & m & -> & H1 & H2).
      destruct (Z_le_dec (- el) m); [destruct (Z_le_dec m el)|].
      + apply G. split; lia.
      + rewrite T2, T by (auto; unfold valid_lm; lia). reflexivity.
      + rewrite T2, T by (auto; unfold valid_lm; lia). reflexivity.
  Qed.

  Lemma flm_2d_to_1d_error (f : ndarray A) L :
    List.length (shape f) <> 2%nat -> flm_2d_to_1d zero f L = Err ValueError.
  Proof.
    intros H. unfold flm_2d_to_1d. destruct (Nat.eqb_spec (List.length (shape f)) 2); [lia|reflexivity].
  Qed.
  Lemma flm_1d_to_2d_error (f : ndarray A) L :
    List.length (shape f) <> 1%nat -> flm_1d_to_2d zero f L = Err ValueError.
  Proof.
    intros H. unfold flm_1d_to_2d. destruct (Nat.eqb_spec (List.length (shape f)) 1); [lia|reflexivity].
  Qed.
End R.

(** ** C04: healpy ordering *)
Lemma hp_getidx_eq L el m : 2 * hp_getidx L el m = m * (2 * L - 1 - m) + 2 * el.
Proof.
  unfold hp_getidx.
  assert (H : (m * (2 * L - 1 - m)) mod 2 = 0).
  { replace (m * (2 * L - 1 - m)) with ((m * (L - m)) * 2 + m * (m - 1)) by ring.
    rewrite Z.add_comm, Z_mod_plus_full.
    rewrite Z.mul_mod, Zminus_mod by lia.
    destruct (Z.mod_pos_bound m 2); [lia|].
    assert (m mod 2 = 0 \/ m mod 2 = 1) as [-> | ->] by lia; reflexivity. }
  pose proof (Z.div_mod (m * (2 * L - 1 - m)) 2). lia.
Qed.

Lemma hp_getidx_range L el m : valid_lm_pos L el m ->
  0 <= hp_getidx L el m < L * (L + 1) / 2.
Proof.
  intros [H1 H2]. pose proof (hp_getidx_eq L el m) as E.
  assert (H : 2 * (L * (L + 1) / 2) = L * (L + 1)).
  { assert ((L * (L + 1)) mod 2 = 0).
    { rewrite Z.mul_mod, Z.add_mod by lia. destruct (Z.mod_pos_bound L 2); [lia|].
      assert (L mod 2 = 0 \/ L mod 2 = 1) as [-> | ->] by lia; reflexivity. }
    pose proof (Z.div_mod (L * (L + 1)) 2). lia. }
  nia.
Qed.

Lemma hp_getidx_inj L el m el' m' : valid_lm_pos L el m -> valid_lm_pos L el' m' ->
  hp_getidx L el m = hp_getidx L el' m' -> el = el' /\ m = m'.
Proof.
  intros [H1 H2] [H3 H4] E.
  pose proof (hp_getidx_eq L el m) as E1. pose proof (hp_getidx_eq L el' m') as E2.
  assert (m = m') by (destruct (Z.lt_trichotomy m m') as [|[|]]; [exfalso; nia|auto|exfalso; nia]).
  subst. lia.
Qed.

Lemma half_even L : 2 * (L * (L + 1) / 2) = L * (L + 1).
Proof.
  assert ((L * (L + 1)) mod 2 = 0).
  { rewrite Z.mul_mod, Z.add_mod by lia. destruct (Z.mod_pos_bound L 2); [lia|].
    assert (L mod 2 = 0 \/ L mod 2 = 1) as [-> | ->] by lia; reflexivity. }
  pose proof (Z.div_mod (L * (L + 1)) 2). lia.
Qed.

(** Surjectivity by walking through the rows: order m holds the indices from hp_getidx L m m on. *)
Lemma hp_getidx_surj L k : 1 <= L -> 0 <= k < L * (L + 1) / 2 ->
  exists el m, valid_lm_pos L el m /\ hp_getidx L el m = k.
Proof.
  intros HL Hk. pose proof (half_even L) as HE.
  assert (P : forall M, 0 <= M -> M <= L -> 2 * k < M * (2 * L + 1 - M) ->
     exists el m, valid_lm_pos L el m /\ hp_getidx L el m = k).
  { z_ind.
    - intros; lia.
    - intros M HM IH HML Hlt.
      destruct (Z_lt_dec (2 * k) (M * (2 * L + 1 - M))) as [H|H]; [apply IH; lia|].
      pose proof (hp_getidx_eq L M M) as E0.
      exists (M + (k - hp_getidx L M M)), M.
      assert (E : hp_getidx L (M + (k - hp_getidx L M M)) M = k).
      { pose proof (hp_getidx_eq L (M + (k - hp_getidx L M M)) M). lia. }
      split; [|exact E]. unfold valid_lm_pos. nia. }
  apply (P L); nia.
Qed.

Lemma hp_getidx_bijection L : 1 <= L ->
  bijection2 (valid_lm_pos L) (hp_getidx L) (L * (L + 1) / 2).
Proof.
  intros HL. split; [|split].
  - apply hp_getidx_range.
  - intros; now apply (hp_getidx_inj L).
  - intros k Hk. now apply hp_getidx_surj.
Qed.

Section HP0.
  Context {A : Type} (zero : A).

  Lemma flm_2d_to_hp_spec (f : ndarray A) L : 1 <= L -> shape f = flm_shape L ->
    exists o, flm_2d_to_hp zero f L = Ok o /\ shape o = [L * (L + 1) / 2] /\
      forall el m, valid_lm_pos L el m -> get o [hp_getidx L el m] = get f [el; L - 1 + m].
  Proof.
    intros HL Hs. unfold flm_2d_to_hp.
    rewrite foldM_nested. fold (lm_pairs_pos L).
    destruct (write_loop (fun p => [hp_getidx L (fst p) (snd p)])
        (fun p => get f [fst p; L - 1 + snd p])
        (fun out p => let* v := aread f [fst p; L - 1 + snd p] in
                      awrite out [hp_getidx L (fst p) (snd p)] v)
        (lm_pairs_pos L) (zeros zero [L * (L + 1) / 2])) as (o & E & S1 & G1 & G2).
    - intros a' [el m] _ Hin. cbn [fst snd]. apply in_lm_pairs_pos in Hin. unfold valid_lm_pos in Hin.
      rewrite aread_in; [reflexivity|]. rewrite Hs. shp.
    - intros [el m] Hin. apply in_lm_pairs_pos in Hin. cbn [fst snd shape zeros in_shape].
      pose proof (hp_getidx_range L el m Hin). lia.
    - apply lm_pairs_pos_NoDup.
    - intros [el m] [el' m'] H1 H2 Heq. apply in_lm_pairs_pos in H1, H2.
      cbn [fst snd] in Heq. injection Heq as Heq.
      destruct (hp_getidx_inj L el m el' m') as [-> ->]; auto.
    - exists o. rewrite E. cbn [shape zeros] in S1. repeat split; auto.
      intros el m H. apply (G1 (el, m)). now apply in_lm_pairs_pos.
  Qed.

  Lemma lm2lm_hp_spec (f : ndarray A) L : 1 <= L -> shape f = [L * L] ->
    exists o, lm2lm_hp zero f L = Ok o /\ shape o = [L * (L + 1) / 2] /\
      forall el m, valid_lm_pos L el m -> get o [hp_getidx L el m] = get f [elm2ind el m].
  Proof.
    intros HL Hs. unfold lm2lm_hp.
    rewrite foldM_nested. fold (lm_pairs_pos L).
    destruct (write_loop (fun p => [hp_getidx L (fst p) (snd p)])
        (fun p => get f [elm2ind (fst p) (snd p)])
        (fun out p => let* v := aread f [elm2ind (fst p) (snd p)] in
                      awrite out [hp_getidx L (fst p) (snd p)] v)
        (lm_pairs_pos L) (zeros zero [L * (L + 1) / 2])) as (o & E & S1 & G1 & G2).
    - intros a' [el m] _ Hin. cbn [fst snd]. apply in_lm_pairs_pos in Hin. unfold valid_lm_pos in Hin.
      rewrite aread_in; [reflexivity|]. rewrite Hs. cbn.
      assert (Hv : valid_lm L el m) by (unfold valid_lm; lia).
      pose proof (elm2ind_range L el m Hv). lia.
    - intros [el m] Hin. apply in_lm_pairs_pos in Hin. cbn [fst snd shape zeros in_shape].
      pose proof (hp_getidx_range L el m Hin). lia.
    - apply lm_pairs_pos_NoDup.
    - intros [el m] [el' m'] H1 H2 Heq. apply in_lm_pairs_pos in H1, H2.
      cbn [fst snd] in Heq. injection Heq as Heq.
      destruct (hp_getidx_inj L el m el' m') as [-> ->]; auto.
    - exists o. rewrite E. cbn [shape zeros] in S1. repeat split; auto.
      intros el m H. apply (G1 (el, m)). now apply in_lm_pairs_pos.
  Qed.

End HP0.

Section HP.
  Context {A : Type} (zero : A) (neg conj : A -> A).

  (** One degree of the healpy -> 2D loop. *)
  Lemma hp_row (f out : ndarray A) L el : 0 <= el < L ->
    shape f = [L * (L + 1) / 2] -> shape out = flm_shape L -> forall M, 0 <= M -> M <= el ->
    exists o,
      foldM (fun out m =>
          let* v := aread f [hp_getidx L el m] in
          let* out := awrite out [el; L - 1 + m] v in
          let* w := aread out [el; L - 1 + m] in
          awrite out [el; L - 1 - m] (sgn_pow neg m (conj w)))
        (zrange 1 (M + 1)) out = Ok o /\ shape o = flm_shape L /\
      (forall m, 1 <= m <= M -> get o [el; L - 1 + m] = get f [hp_getidx L el m] /\
          get o [el; L - 1 - m] = sgn_pow neg m (conj (get f [hp_getidx L el m]))) /\
      (forall j, (forall m, 1 <= m <= M -> j <> [el; L - 1 + m] /\ j <> [el; L - 1 - m]) ->
          get o j = get out j).
  Proof.
    intros Hel Hf Hout.
    z_ind.
    - intros _. exists out. rewrite zrange_nil by lia. cbn. repeat split; auto; lia.
    - intros M HM IH HMel. destruct IH as (o & E & S1 & G1 & G2); [lia|].
      replace (Z.succ M + 1) with (M + 1 + 1) by lia.
      rewrite zrange_snoc by lia. rewrite foldM_app, E. cbn [bind foldM].
      rewrite aread_in.
      2:{ rewrite Hf. cbn [in_shape]. pose proof (hp_getidx_range L el (M + 1)) as HH.
          unfold valid_lm_pos in HH. lia. }
      cbn [bind]. rewrite awrite_in by (rewrite S1; shp). cbn [bind].
      rewrite aread_in by (cbn [shape]; rewrite S1; shp). cbn [bind get].
      rewrite upd_same.
      rewrite awrite_in by (cbn [shape]; rewrite S1; shp). cbn [bind].
      eexists. split; [reflexivity|]. cbn [shape get]. split; [exact S1|]. split.
      + intros m Hm. destruct (Z.eq_dec m (M + 1)) as [->|Hne].
        * split; [|now rewrite upd_same].
          rewrite upd_other by (intros Heq; injection Heq; lia). now rewrite upd_same.
        * rewrite !upd_other by (intros Heq; injection Heq; lia). apply G1. lia.
      + intros j Hj. rewrite !upd_other by (apply Hj; lia). apply G2. intros m Hm. apply Hj. lia.
  Qed.

  Lemma flm_hp_to_2d_spec (f : ndarray A) L : 1 <= L -> shape f = [L * (L + 1) / 2] ->
    exists o, flm_hp_to_2d zero neg conj f L = Ok o /\ shape o = flm_shape L /\
      (forall el m, valid_lm_pos L el m -> get o [el; L - 1 + m] = get f [hp_getidx L el m]) /\
      real_symmetric neg conj L o /\ triangular zero L o.
  Proof.
    intros HL Hf. unfold flm_hp_to_2d. rewrite Hf. cbn [List.length Nat.eqb negb].
    assert (P : forall K, 0 <= K -> K <= L -> exists o,
       foldM (fun out el =>
        let* v0 := aread f [hp_getidx L el 0] in
        let* out := awrite out [el; L - 1 + 0] v0 in
        foldM (fun out m =>
          let* v := aread f [hp_getidx L el m] in
          let* out := awrite out [el; L - 1 + m] v in
          let* w := aread out [el; L - 1 + m] in
          awrite out [el; L - 1 - m] (sgn_pow neg m (conj w)))
          (zrange 1 (el + 1)) out)
        (zrange 0 K) (zeros zero (flm_shape L)) = Ok o /\ shape o = flm_shape L /\
      (forall el m, valid_lm_pos K el m -> get o [el; L - 1 + m] = get f [hp_getidx L el m]) /\
      (forall el m, 0 <= el < K -> 1 <= m <= el ->
          get o [el; L - 1 - m] = sgn_pow neg m (conj (get f [hp_getidx L el m]))) /\
      (forall el c, ~ valid_lm K el (c - (L - 1)) -> get o [el; c] = zero)).
    { z_ind.
      - intros _. exists (zeros zero (flm_shape L)). rewrite zrange_nil by lia.
        cbn. unfold valid_lm_pos. repeat split; auto; intros; lia.
      - intros K HK IH HKL. destruct IH as (o & E & S1 & G1 & G2 & G3); [lia|].
        replace (Z.succ K) with (K + 1) by lia.
        rewrite zrange_snoc by lia. rewrite foldM_app, E. cbn [bind foldM].
        rewrite aread_in.
        2:{ rewrite Hf. cbn [in_shape]. pose proof (hp_getidx_range L K 0) as HH.
            unfold valid_lm_pos in HH. lia. }
        cbn [bind]. rewrite awrite_in by (rewrite S1; shp). cbn [bind].
        destruct (hp_row f (mkArr (shape o) (upd (get o) [K; L - 1 + 0] (get f [hp_getidx L K 0])))
          L K) with (M := K) as (o' & E' & S' & G1' & G2'); try (auto; lia).
        rewrite E'. exists o'. split; [reflexivity|]. split; [exact S'|]. split; [|split].
        + intros el m Hv. unfold valid_lm_pos in *.
          destruct (Z.eq_dec el K) as [->|Hne].
          * destruct (Z.eq_dec m 0) as [->|Hm].
            -- rewrite G2'; [cbn [get]; apply upd_same|].
               intros m' Hm'. split; intros Heq; injection Heq; lia.
            -- apply G1'. lia.
          * rewrite G2' by (intros m' Hm'; split; intros Heq; injection Heq; lia).
            cbn [get]. rewrite upd_other by (intros Heq; injection Heq; lia).
            apply G1. lia.
        + intros el m H1 H2. destruct (Z.eq_dec el K) as [->|Hne].
          * apply G1'. lia.
          * rewrite G2' by (intros m' Hm'; split; intros Heq; injection Heq; lia).
            cbn [get]. rewrite upd_other by (intros Heq; injection Heq; lia).
            apply G2; lia.
        + intros el c Hn. unfold valid_lm in *.
          rewrite G2' by (intros m' Hm'; split; intros Heq; injection Heq; intros; subst; apply Hn; lia).
          cbn [get]. rewrite upd_other by (intros Heq; injection Heq; intros; subst; apply Hn; lia).
          apply G3. lia. }
    destruct (P L) as (o & E & S1 & G1 & G2 & G3); [lia|lia|].
    exists o. split; [exact E|]. split; [exact S1|]. split; [exact G1|]. split.
    - intros el m H1 H2. rewrite G2 by lia. rewrite G1 by (unfold valid_lm_pos; lia). reflexivity.
    - intros el m H1 H2 H3. apply G3. replace (L - 1 + m - (L - 1)) with m by lia. exact H3.
  Qed.

  Lemma roundtrip_hp (f : ndarray A) L : 1 <= L -> shape f = [L * (L + 1) / 2] ->
    exists g h, flm_hp_to_2d zero neg conj f L = Ok g /\ flm_2d_to_hp zero g L = Ok h /\ arr_eq h f.
  Proof.
    intros HL Hs.
    destruct (flm_hp_to_2d_spec f L HL Hs) as (g & E1 & S1 & G1 & _).
    destruct (flm_2d_to_hp_spec zero g L HL S1) as (h & E2 & S2 & G2).
    exists g, h. repeat split; auto; [congruence|].
    intros idx Hin. rewrite S2 in Hin. destruct idx as [|k [|]]; cbn [in_shape] in Hin; try tauto.
    destruct (hp_getidx_surj L k HL (proj1 Hin)) as (el & m & Hv & <-).
    rewrite (G2 _ _ Hv). apply G1; auto.
  Qed.

  Lemma roundtrip_2d_hp (f : ndarray A) L : 1 <= L -> shape f = flm_shape L ->
    exists g h, flm_2d_to_hp zero f L = Ok g /\ flm_hp_to_2d zero neg conj g L = Ok h /\
      (arr_eq h f <-> triangular zero L f /\ real_symmetric neg conj L f).
  Proof.
    intros HL Hs.
    destruct (flm_2d_to_hp_spec zero f L HL Hs) as (g & E1 & S1 & G1).
    destruct (flm_hp_to_2d_spec g L HL S1) as (h & E2 & S2 & G2 & R2 & T2).
    assert (G : forall el m, valid_lm_pos L el m -> get h [el; L - 1 + m] = get f [el; L - 1 + m]).
    { intros el m Hv. rewrite (G2 _ _ Hv). auto. }
    exists g, h. do 2 (split; [auto|]). split.
    - intros [_ He]. rewrite S2 in He. split.
      + intros el m H1 H2 H3. rewrite <- He by shp. now apply T2.
      + intros el m H1 H2. rewrite <- !He by shp. now apply R2.
    - intros [T R]. split; [congruence|]. intros idx Hin. rewrite S2 in Hin.
      destruct (idx2_split L idx Hin) as (el & m & -> & H1 & H2).
      destruct (Z_le_dec 0 m); [destruct (Z_le_dec m el)|destruct (Z_le_dec (- el) m)].
      + apply G. split; lia.
      + rewrite T2, T by (auto; unfold valid_lm; lia). reflexivity.
      + replace (L - 1 + m) with (L - 1 - (- m)) by lia.
        rewrite R2, R by lia. rewrite G by (split; lia). reflexivity.
      + rewrite T2, T by (auto; unfold valid_lm; lia). reflexivity.
  Qed.

End HP.

Section LM.
  Context {A : Type} (zero : A).

  (** lm2lm_hp is 1D -> 2D -> healpy. *)
  Lemma lm2lm_hp_compose (f : ndarray A) L : 1 <= L -> shape f = [L * L] ->
    exists g h k, flm_1d_to_2d zero f L = Ok g /\ flm_2d_to_hp zero g L = Ok h /\
      lm2lm_hp zero f L = Ok k /\ arr_eq h k.
  Proof.
    intros HL Hs.
    destruct (flm_1d_to_2d_spec zero f L HL Hs) as (g & E1 & S1 & G1 & _).
    destruct (flm_2d_to_hp_spec zero g L HL S1) as (h & E2 & S2 & G2).
    destruct (lm2lm_hp_spec zero f L HL Hs) as (k & E3 & S3 & G3).
    exists g, h, k. repeat split; auto; [congruence|].
    intros idx Hin. rewrite S2 in Hin. destruct idx as [|i [|]]; cbn [in_shape] in Hin; try tauto.
    destruct (hp_getidx_surj L i HL (proj1 Hin)) as (el & m & Hv & <-).
    rewrite G2, G3, G1; auto. unfold valid_lm, valid_lm_pos in *; lia.
  Qed.
End LM.
