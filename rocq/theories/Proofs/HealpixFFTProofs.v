From Coq Require Import ZifyBool Psatz.
From Verif Require Import Lib.Py Lib.Vec Lib.VecFacts Model.Samples Model.HealpixFFT
  Spec.SamplesSpec Proofs.SamplesProofs.
Open Scope Z_scope.
Set Default Proof Using "Type".

(** ** folding *)
(** Value of slot i after the additions listed in [l] (destination, value), in order. *)
Definition acc {A} (add : A -> A -> A) (l : list (Z * A)) (i : Z) (a0 : A) : A :=
  fold_left (fun a p => if fst p =? i then add a (snd p) else a) l a0.

Definition neg_adds {A} (fm : Z -> A) (nphi L : Z) : list (Z * A) :=
  map (fun idx => ((- idx) mod nphi, fm (L - nphi / 2 - idx))) (zrange 1 (L - nphi / 2 + 1)).
Definition pos_adds {A} (fm : Z -> A) (nphi L : Z) : list (Z * A) :=
  map (fun idx => (idx mod nphi, fm (L - nphi / 2 + nphi + idx))) (zrange 0 (L - nphi / 2)).

(** The folded spectrum: all three implementations compute exactly this, with the additions in
    this order. *)
Definition folded {A} (add : A -> A -> A) (fm : Z -> A) (nphi L i : Z) : A :=
  acc add (pos_adds fm nphi L) i (acc add (neg_adds fm nphi L) i (fm (L - nphi / 2 + i))).

Section Fold.
  Context {A : Type} (add : A -> A -> A).

  Lemma view_loop (d s : Z -> Z) lo n l : forall (fm : vec A),
    0 <= lo -> lo + n <= vlen fm ->
    (forall x, In x l -> 0 <= d x < n /\ 0 <= s x < vlen fm /\ (s x < lo \/ lo + n <= s x)) ->
    exists fm', foldM (fun fm x => view_add add fm lo n (d x) (vread fm (s x))) l fm = Ok fm' /\
      vlen fm' = vlen fm /\
      (forall j, j < lo \/ lo + n <= j -> vat fm' j = vat fm j) /\
      (forall i, 0 <= i < n ->
         vat fm' (lo + i) = acc add (map (fun x => (d x, vat fm (s x))) l) i (vat fm (lo + i))).
  Proof.
    induction l as [|x l IH]; intros fm H1 H2 Hl.
    - exists fm. repeat split; auto.
    - cbn [foldM]. destruct (Hl x) as (D & S1 & S2); [left; auto|].
      unfold view_add at 1. rewrite norm_index_in by auto.
      rewrite !vread_in by lia. cbn [bind]. rewrite vwrite_in by lia.
      destruct (IH (mkVec (vlen fm) (vupd (vat fm) (lo + d x) (add (vat fm (lo + d x)) (vat fm (s x))))))
        as (fm' & E & V & O & G); cbn [vlen vat].
      + auto. + auto. + intros y Hy. apply Hl. right; auto.
      + exists fm'. split; [exact E|]. cbn [vlen vat] in *. split; [exact V|]. split.
        * intros j Hj. rewrite O by auto. apply vupd_other. lia.
        * intros i Hi. rewrite G by auto. unfold acc. cbn [map fold_left fst snd].
          assert (Em : map (fun x0 => (d x0, vupd (vat fm) (lo + d x)
               (add (vat fm (lo + d x)) (vat fm (s x))) (s x0))) l
             = map (fun x0 => (d x0, vat fm (s x0))) l).
          { apply map_ext_in. intros y Hy. rewrite vupd_other; [reflexivity|].
            destruct (Hl y) as (_ & _ & ?); [right; auto|lia]. }
          rewrite Em. f_equal.
          destruct (Z.eqb_spec (d x) i) as [<-|Hne]; [apply vupd_same|apply vupd_other; lia].
  Qed.

  Lemma at_loop (d : Z -> Z) (v : Z -> result A) (w : Z -> A) n l : forall (x : vec A),
    vlen x = n ->
    (forall k, In k l -> 0 <= d k < n /\ v k = Ok (w k)) ->
    exists x', foldM (fun x k => at_add add x (d k) (v k)) l x = Ok x' /\ vlen x' = n /\
      (forall i, vat x' i = acc add (map (fun k => (d k, w k)) l) i (vat x i)).
  Proof.
    induction l as [|k l IH]; intros x Hx Hl.
    - exists x. repeat split; auto.
    - cbn [foldM]. destruct (Hl k) as (D & V); [left; auto|].
      unfold at_add at 1. rewrite vread_in by lia. rewrite V. cbn [bind]. rewrite vwrite_in by lia.
      destruct (IH (mkVec (vlen x) (vupd (vat x) (d k) (add (vat x (d k)) (w k))))) as (x' & E & N & G);
        cbn [vlen vat]; auto.
      + intros j Hj. apply Hl; right; auto.
      + exists x'. split; [exact E|]. split; [auto|]. intros i. rewrite G. cbn [vat].
        unfold acc. cbn [map fold_left fst snd]. f_equal.
        destruct (Z.eqb_spec (d k) i) as [<-|Hne]; [apply vupd_same|apply vupd_other; lia].
  Qed.

  (** NumPy folding: returns the folded spectrum, and writes it into the middle of the caller's
      array. *)
  Lemma spectral_folding_spec (fm : vec A) nphi L :
    0 < nphi -> Z.even nphi = true -> nphi <= 2 * L -> vlen fm = 2 * L ->
    exists fm' sl, spectral_folding add fm nphi L = Ok (fm', sl) /\
      vlen fm' = 2 * L /\ vlen sl = nphi /\
      (forall i, 0 <= i < nphi -> vat sl i = folded add (vat fm) nphi L i) /\
      (forall i, 0 <= i < nphi -> vat fm' (L - nphi / 2 + i) = folded add (vat fm) nphi L i) /\
      (forall j, j < L - nphi / 2 \/ L + nphi / 2 <= j -> vat fm' j = vat fm j).
  Proof.
    intros Hn He HL Hlen. pose proof (even_half nphi He) as Hh.
    unfold spectral_folding. replace (negb (nphi <=? 2 * L)) with false by lia.
    rewrite Hlen. rewrite slice_lo_in, slice_len_in by lia.
    replace (L - nphi / 2 + nphi - (L - nphi / 2)) with nphi by lia.
    destruct (view_loop (fun idx => (- idx) mod nphi) (fun idx => L - nphi / 2 - idx)
       (L - nphi / 2) nphi (zrange 1 (L - nphi / 2 + 1)) fm) as (fm1 & E1 & V1 & O1 & G1); try lia.
    { intros x Hx. apply in_zrange in Hx. pose proof (Z.mod_pos_bound (- x) nphi). lia. }
    rewrite E1. cbn [bind]. rewrite V1, Hlen.
    replace (2 * L - (L - nphi / 2 + nphi)) with (L - nphi / 2) by lia.
    destruct (view_loop (fun idx => idx mod nphi) (fun idx => L - nphi / 2 + nphi + idx)
       (L - nphi / 2) nphi (zrange 0 (L - nphi / 2)) fm1) as (fm2 & E2 & V2 & O2 & G2); try lia.
    { intros x Hx. apply in_zrange in Hx. pose proof (Z.mod_pos_bound x nphi). lia. }
    rewrite E2. cbn [bind].
    assert (F : forall i, 0 <= i < nphi -> vat fm2 (L - nphi / 2 + i) = folded add (vat fm) nphi L i).
    { intros i Hi. rewrite G2, G1 by auto. unfold folded, neg_adds, pos_adds.
      apply (f_equal (fun l => acc add l i _)). apply map_ext_in. intros y Hy. apply in_zrange in Hy. rewrite O1 by lia. reflexivity. }
    exists fm2, (vslice fm2 (L - nphi / 2) (L - nphi / 2 + nphi)).
    split; [reflexivity|]. rewrite vslice_in by lia. cbn [vlen vat].
    split; [lia|]. split; [lia|]. split; [exact F|]. split; [exact F|].
    intros j Hj. rewrite O2, O1 by lia. reflexivity.
  Qed.

  Lemma spectral_folding_assert (fm : vec A) nphi L : 2 * L < nphi ->
    spectral_folding add fm nphi L = Err AssertionError.
  Proof. intros H. unfold spectral_folding. now replace (negb (nphi <=? 2 * L)) with true by lia. Qed.

  Lemma spectral_folding_jax_spec (fm : vec A) nphi L :
    0 < nphi -> Z.even nphi = true -> nphi <= 2 * L -> vlen fm = 2 * L ->
    exists sl, spectral_folding_jax add fm nphi L = Ok sl /\ vlen sl = nphi /\
      (forall i, 0 <= i < nphi -> vat sl i = folded add (vat fm) nphi L i).
  Proof.
    intros Hn He HL Hlen. pose proof (even_half nphi He) as Hh.
    unfold spectral_folding_jax. rewrite vslice_in by lia.
    replace (L - nphi / 2 + nphi - (L - nphi / 2)) with nphi by lia.
    destruct (at_loop (fun k => (- k) mod nphi) (fun k => vread fm (L - nphi / 2 - k))
      (fun k => vat fm (L - nphi / 2 - k)) nphi (zrange 1 (L - nphi / 2 + 1))
      (mkVec nphi (fun i => vat fm (L - nphi / 2 + i)))) as (x1 & E1 & V1 & G1); [reflexivity| |].
    { intros k Hk. apply in_zrange in Hk. split; [apply Z.mod_pos_bound; lia|].
      apply vread_in. lia. }
    rewrite E1. cbn [bind].
    destruct (at_loop (fun k => k mod nphi) (fun k => vread fm (L - nphi / 2 + nphi + k))
      (fun k => vat fm (L - nphi / 2 + nphi + k)) nphi (zrange 0 (L - nphi / 2)) x1)
      as (x2 & E2 & V2 & G2); [exact V1| |].
    { intros k Hk. apply in_zrange in Hk. split; [apply Z.mod_pos_bound; lia|].
      apply vread_in. lia. }
    exists x2. split; [exact E2|]. split; [exact V2|].
    intros i Hi. rewrite G2, G1. reflexivity.
  Qed.
End Fold.

(** ** periodic extension *)
Section Ext.
  Context {A : Type} (zero : A).

  Lemma extension_spec (fm : vec A) nphi L :
    0 < nphi -> nphi <= 2 * L -> vlen fm = nphi ->
    exists o, spectral_periodic_extension zero fm nphi L = Ok o /\ vlen o = 2 * L /\
      forall k, 0 <= k < 2 * L -> vat o k = vat fm ((k - (L - nphi / 2)) mod nphi).
  Proof.
    intros Hn HL Hlen. pose proof (Z.div_mod nphi 2 ltac:(lia)) as Hdm.
    pose proof (Z.mod_pos_bound nphi 2 ltac:(lia)) as Hb.
    unfold spectral_periodic_extension. replace (negb (nphi <=? 2 * L)) with false by lia.
    rewrite vassign_in by (cbn [vlen vconst]; lia). cbn [bind vlen vconst].
    set (v1 := mkVec (2 * L) _).
    destruct (vwrite_loop (fun idx => L - nphi / 2 - idx) (fun idx => vat fm ((- idx) mod nphi))
      (fun full idx => let* v := vread fm ((- idx) mod nphi) in
         vwrite full (L - nphi / 2 - idx) v)
      (zrange 1 (L - nphi / 2 + 1)) v1) as (v2 & E2 & V2 & G2 & O2).
    { intros v' x _ Hx. rewrite vread_in; [reflexivity|].
      pose proof (Z.mod_pos_bound (- x) nphi). lia. }
    { intros x Hx. apply in_zrange in Hx. cbn [vlen v1]. lia. }
    { apply zrange_NoDup. } { intros; lia. }
    rewrite E2. cbn [bind]. rewrite V2. cbn [vlen v1].
    destruct (vwrite_loop (fun idx => L - nphi / 2 + nphi + idx) (fun idx => vat fm (idx mod nphi))
      (fun full idx => let* v := vread fm (idx mod nphi) in
         vwrite full (L - nphi / 2 + nphi + idx) v)
      (zrange 0 (2 * L - (L - nphi / 2 + nphi))) v2) as (v3 & E3 & V3 & G3 & O3).
    { intros v' x _ Hx. rewrite vread_in; [reflexivity|].
      pose proof (Z.mod_pos_bound x nphi). lia. }
    { intros x Hx. apply in_zrange in Hx. rewrite V2. cbn [vlen v1]. lia. }
    { apply zrange_NoDup. } { intros; lia. }
    exists v3. split; [exact E3|]. split; [rewrite V3, V2; reflexivity|].
    intros k Hk.
    destruct (Z_lt_dec k (L - nphi / 2)) as [H1|H1]; [|destruct (Z_lt_dec k (L - nphi / 2 + nphi)) as [H2|H2]].
    - rewrite O3 by (intros x Hx; apply in_zrange in Hx; lia).
      replace k with (L - nphi / 2 - (L - nphi / 2 - k)) at 1 by lia.
      rewrite G2 by (apply in_zrange; lia). do 2 f_equal. lia.
    - rewrite O3 by (intros x Hx; apply in_zrange in Hx; lia).
      rewrite O2 by (intros x Hx; apply in_zrange in Hx; lia).
      unfold v1; cbn [vat].
      match goal with |- context [if ?b then _ else _] => replace b with true by lia end.
      rewrite Z.mod_small by lia. reflexivity.
    - replace k with (L - nphi / 2 + nphi + (k - (L - nphi / 2 + nphi))) at 1 by lia.
      rewrite G3 by (apply in_zrange; lia). f_equal.
      replace (k - (L - nphi / 2)) with (k - (L - nphi / 2 + nphi) + 1 * nphi) by lia.
      rewrite Z_mod_plus_full. reflexivity.
  Qed.

  Lemma extension_assert (fm : vec A) nphi L : 2 * L < nphi ->
    spectral_periodic_extension zero fm nphi L = Err AssertionError.
  Proof.
    intros H. unfold spectral_periodic_extension.
    now replace (negb (nphi <=? 2 * L)) with true by lia.
  Qed.

  Lemma extension_jax_spec (fm : vec A) L :
    0 < vlen fm -> vlen fm <= 2 * L ->
    vlen (spectral_periodic_extension_jax fm L) = 2 * L /\
    forall k, 0 <= k < 2 * L ->
      vat (spectral_periodic_extension_jax fm L) k = vat fm ((k - (L - vlen fm / 2)) mod vlen fm).
  Proof.
    intros Hn HL. set (nphi := vlen fm) in *.
    pose proof (Z.div_mod nphi 2 ltac:(lia)) as Hdm.
    pose proof (Z.mod_pos_bound nphi 2 ltac:(lia)) as Hb.
    assert (Hc : (nphi + 1) / 2 = nphi - nphi / 2).
    { pose proof (Z.div_mod (nphi + 1) 2 ltac:(lia)). pose proof (Z.mod_pos_bound (nphi + 1) 2 ltac:(lia)). lia. }
    unfold spectral_periodic_extension_jax. fold nphi. rewrite Hc. cbn [vlen vapp].
    fold nphi. split; [lia|]. intros k Hk. cbn [vat vlen vapp]. fold nphi.
    rewrite !Z.max_r by lia.
    destruct (Z.ltb_spec k (L - nphi / 2)).
    - do 2 f_equal. lia.
    - cbn [vat vlen]. fold nphi. destruct (Z.ltb_spec (k - (L - nphi / 2)) nphi).
      + now rewrite Z.mod_small by lia.
      + cbn [vat]. f_equal.
        replace (k - (L - nphi / 2)) with (k - (L - nphi / 2) - nphi + 1 * nphi) at 2 by lia.
        now rewrite Z_mod_plus_full.
  Qed.
End Ext.

Lemma vslice_of_len {A} (v : vec A) s e n : 0 <= s -> s <= e -> e <= vlen v -> e - s = n ->
  vslice v s e = mkVec n (fun i => vat v (s + i)).
Proof. intros. subst n. now apply vslice_in. Qed.

(** ** whole maps *)
Section Rings.
  Context {A : Type} (zero : A) (add : A -> A -> A).
  Context (fft rfft ifft : vec A -> vec A) (irfft : vec A -> Z -> vec A).
  Hypothesis fft_len : forall x, vlen (fft x) = vlen x.
  Hypothesis fft_ext : forall x y, veq x y -> veq (fft x) (fft y).

  (** Ring t of a map in ring order. *)
  Definition ring_of (f : vec A) (nside t : Z) : vec A :=
    mkVec (ring_length nside t) (fun p => vat f (ring_start (ring_length nside) t + p)).

  Lemma shift_ext nphi L k : 0 < nphi ->
    ((k - (L - nphi / 2)) mod nphi - nphi / 2) mod nphi = (k - L) mod nphi.
  Proof.
    intros. rewrite Zminus_mod_idemp_l. f_equal. lia.
  Qed.

  (** Entry of order k - L of a transformed ring. *)
  Definition row_entry (reality : bool) (c : vec A) (L k : Z) : A :=
    if reality && (vlen c =? 2 * L) then (if k <? L then zero else vat (rfft c) (k - L))
    else vat (fft c) ((k - L) mod vlen c).
  Definition rfft_ok (reality : bool) : Prop := reality = true ->
    (forall x, vlen (rfft x) = vlen x / 2 + 1) /\
    (forall x y, veq x y -> veq (rfft x) (rfft y)).

  Lemma row_entry_ext reality c c' L k : rfft_ok reality -> 0 < vlen c -> vlen c <= 2 * L ->
    veq c c' -> 0 <= k < 2 * L -> row_entry reality c L k = row_entry reality c' L k.
  Proof using fft_ext fft_len.
    intros Hr Hn HL Hv Hk. unfold row_entry. destruct Hv as [V G] eqn:E. rewrite <- V.
    destruct reality; cbn [andb].
    - destruct (Hr eq_refl) as [R1 R2]. destruct (Z.eqb_spec (vlen c) (2 * L)).
      + destruct (Z.ltb_spec k L); [reflexivity|]. apply (R2 c c' Hv). rewrite R1.
        replace (vlen c / 2) with L by (rewrite e, Z.mul_comm; symmetry; apply Z.div_mul; lia). lia.
      + apply (fft_ext c c' Hv). rewrite fft_len. apply Z.mod_pos_bound. lia.
    - apply (fft_ext c c' Hv). rewrite fft_len. apply Z.mod_pos_bound. lia.
  Qed.

  Lemma ring_fft_numpy_spec reality (c : vec A) L : rfft_ok reality -> 0 < vlen c -> vlen c <= 2 * L ->
    exists row, ring_fft_numpy zero fft rfft c (vlen c) L reality = Ok row /\ vlen row = 2 * L /\
      forall k, 0 <= k < 2 * L -> vat row k = row_entry reality c L k.
  Proof using fft_len.
    intros Hr Hn HL. unfold ring_fft_numpy, row_entry.
    destruct (reality && (vlen c =? 2 * L)) eqn:Er.
    - apply andb_true_iff in Er. destruct Er as [-> E]. destruct (Hr eq_refl) as [R1 _].
      rewrite E. apply Z.eqb_eq in E. pose proof (R1 c) as R.
      assert (Hh : vlen c / 2 = L) by (rewrite E, Z.mul_comm; apply Z.div_mul; lia). rewrite Hh in R.
      rewrite (vslice_of_len _ 0 (vlen (rfft c) - 1) L) by lia.
      rewrite vassign_in by (cbn [vlen vconst]; lia). cbn [bind]. eexists. split; [reflexivity|].
      cbn [vlen vat vconst]. split; [exact E|]. intros k Hk. rewrite Hh.
      destruct (Z.ltb_spec k L).
      + match goal with |- context [if ?b then _ else _] => replace b with false by lia end. reflexivity.
      + match goal with |- context [if ?b then _ else _] => replace b with true by lia end. f_equal; lia.
    - cbn [bind].
    destruct (Z.eqb_spec (vlen c) (2 * L)) as [E|E].
    + eexists. split; [reflexivity|]. cbn [vlen fftshift vat]. rewrite fft_len.
      split; [lia|]. intros k Hk. rewrite E. do 2 f_equal.
      f_equal. rewrite Z.mul_comm. apply Z.div_mul. lia.
    + destruct (extension_spec zero (fftshift (fft c)) (vlen c) L) as (o & E1 & V & G); try lia.
      { cbn. apply fft_len. }
      exists o. split; [exact E1|]. split; [exact V|]. intros k Hk. rewrite G by auto.
      cbn [vat fftshift]. rewrite fft_len. now rewrite shift_ext.
  Qed.

  Lemma ring_fft_jax_spec reality (c : vec A) L : rfft_ok reality -> 0 < vlen c -> vlen c <= 2 * L ->
    vlen (ring_fft_jax zero fft rfft c (vlen c) L reality) = 2 * L /\
    forall k, 0 <= k < 2 * L ->
      vat (ring_fft_jax zero fft rfft c (vlen c) L reality) k = row_entry reality c L k.
  Proof using fft_len.
    intros Hr Hn HL. unfold ring_fft_jax, row_entry.
    destruct (reality && (vlen c =? 2 * L)) eqn:Er.
    - apply andb_true_iff in Er. destruct Er as [-> E]. destruct (Hr eq_refl) as [R1 _].
      apply Z.eqb_eq in E. pose proof (R1 c) as R.
      assert (Hh : vlen c / 2 = L) by (rewrite E, Z.mul_comm; apply Z.div_mul; lia). rewrite Hh in *.
      rewrite (vslice_of_len _ 0 (vlen (rfft c) - 1) L) by lia.
      match goal with |- context [spectral_periodic_extension_jax ?w L] => set (x := w) end.
      assert (Hx : vlen x = 2 * L) by (unfold x; cbn [vlen vapp vconst]; lia).
      destruct (extension_jax_spec x L) as [V G]; [lia|lia|].
      split; [exact V|]. intros k Hk. rewrite G by auto. rewrite Hx.
      replace (2 * L / 2) with L by (rewrite Z.mul_comm; symmetry; apply Z.div_mul; lia).
      rewrite Z.sub_diag, Z.sub_0_r, Z.mod_small by lia.
      unfold x. cbn [vat vapp vconst vlen]. destruct (Z.ltb_spec k L); [reflexivity|]. f_equal; lia.
    - destruct (extension_jax_spec (fftshift (fft c)) L) as [V G].
    { cbn [vlen fftshift]. rewrite fft_len. lia. } { cbn [vlen fftshift]. rewrite fft_len. lia. }
    split; [exact V|]. intros k Hk. rewrite G by auto. cbn [vat vlen fftshift]. rewrite fft_len.
    now rewrite shift_ext.
  Qed.

  Lemma healpix_fft_numpy_gen reality (f : vec A) L nside :
    rfft_ok reality -> 1 <= nside -> 4 * nside <= 2 * L -> vlen f = 12 * (nside * nside) ->
    exists ftm, healpix_fft_numpy zero fft rfft f L nside reality = Ok ftm /\
      vlen ftm = 4 * nside - 1 /\
      forall t, 0 <= t < 4 * nside - 1 -> vlen (vat ftm t) = 2 * L /\
        forall k, 0 <= k < 2 * L ->
          vat (vat ftm t) k = row_entry reality (ring_of f nside t) L k.
  Proof using fft_len.
    intros Hr Hn HL Hf. unfold healpix_fft_numpy.
    assert (P : forall T, 0 <= T -> T <= 4 * nside - 1 -> exists ftm,
      foldM (fun st t =>
        let '(index, ftm) := st in
        let* nphi := nphi_ring t nside in
        let* row := ring_fft_numpy zero fft rfft (vslice f index (index + nphi)) nphi L reality in
        if negb (vlen row =? 2 * L) then Err ValueError else
        let* ftm := vwrite ftm t row in
        Ok (index + nphi, ftm))
      (zrange 0 T) (0, vconst (4 * nside - 1) (vconst (2 * L) zero))
      = Ok (ring_start (ring_length nside) T, ftm) /\ vlen ftm = 4 * nside - 1 /\
      forall t, 0 <= t < T -> vlen (vat ftm t) = 2 * L /\
        forall k, 0 <= k < 2 * L ->
          vat (vat ftm t) k = row_entry reality (ring_of f nside t) L k).
    { z_ind.
      - intros _. eexists. split; [reflexivity|]. split; [reflexivity|]. intros; lia.
      - intros T HT IH HT2. destruct IH as (ftm & E & V & G); [lia|].
        replace (Z.succ T) with (T + 1) by lia.
        rewrite zrange_snoc, foldM_app, E by lia. cbn [bind foldM].
        rewrite nphi_ring_spec by lia. cbn [bind].
        pose proof (ring_length_pos nside T Hn ltac:(lia)) as R1.
        pose proof (ring_length_le nside T) as R2.
        assert (R3 : 0 <= ring_start (ring_length nside) T).
        { rewrite <- (ring_start_0 (ring_length nside)). apply ring_start_mono; try lia.
          intros i Hi. pose proof (ring_length_pos nside i Hn ltac:(lia)). lia. }
        assert (R4 : ring_start (ring_length nside) (T + 1) <= 12 * (nside * nside)).
        { rewrite <- ring_start_total by lia. apply ring_start_mono; try lia.
          intros i Hi. pose proof (ring_length_pos nside i Hn ltac:(lia)). lia. }
        pose proof (ring_start_succ (ring_length nside) T HT) as RS1. rewrite RS1 in R4. try rewrite RS1.
        rewrite (vslice_of_len f _ _ (ring_length nside T)) by lia.
        fold (ring_of f nside T).
        destruct (ring_fft_numpy_spec reality (ring_of f nside T) L Hr) as (row & E2 & V2 & G2);
          [cbn [vlen ring_of]; lia|cbn [vlen ring_of]; lia|].
        cbn [vlen ring_of] in E2, G2. fold (ring_of f nside T) in E2, G2. rewrite E2. cbn [bind].
        rewrite V2, Z.eqb_refl. cbn [negb]. rewrite vwrite_in by lia. cbn [bind].
        eexists. split; [reflexivity|]. cbn [vlen vat]. split; [auto|].
        intros t Ht. destruct (Z.eq_dec t T) as [->|Hne].
        + rewrite vupd_same. auto.
        + rewrite vupd_other by auto. apply G. lia. }
    destruct (P (4 * nside - 1)) as (ftm & E & V & G); [lia|lia|].
    rewrite E. cbn [bind snd]. exists ftm. auto.
  Qed.

  Lemma healpix_fft_numpy_spec (f : vec A) L nside :
    1 <= nside -> 4 * nside <= 2 * L -> vlen f = 12 * (nside * nside) ->
    exists ftm, healpix_fft_numpy zero fft rfft f L nside false = Ok ftm /\
      vlen ftm = 4 * nside - 1 /\
      forall t, 0 <= t < 4 * nside - 1 -> vlen (vat ftm t) = 2 * L /\
        forall k, 0 <= k < 2 * L ->
          vat (vat ftm t) k = vat (fft (ring_of f nside t)) ((k - L) mod ring_length nside t).
  Proof using fft_len.
    intros. apply (healpix_fft_numpy_gen false); auto. intros ?; discriminate.
  Qed.

  (** A ring longer than the stored orders is refused. *)
  Lemma healpix_fft_numpy_assert reality (f : vec A) L nside :
    rfft_ok reality -> 1 <= nside -> 1 <= L -> 2 * L < 4 * nside -> vlen f = 12 * (nside * nside) ->
    healpix_fft_numpy zero fft rfft f L nside reality = Err AssertionError.
  Proof using fft_len.
    intros Hr Hn HL1 HL Hf. unfold healpix_fft_numpy.
    (* first ring t with 4(t+1) > 2L *)
    set (T := L / 2).
    assert (HT : 0 <= T /\ 4 * T <= 2 * L < 4 * (T + 1) /\ T < nside).
    { unfold T. pose proof (Z.div_mod L 2 ltac:(lia)). pose proof (Z.mod_pos_bound L 2 ltac:(lia)). lia. }
    clearbody T. destruct HT as (HT0 & HT1 & HT2).
    rewrite (zrange_app 0 T (4 * nside - 1)) by lia. rewrite foldM_app.
    assert (P : forall K, 0 <= K -> K <= T -> exists ftm,
      foldM (fun st t =>
        let '(index, ftm) := st in
        let* nphi := nphi_ring t nside in
        let* row := ring_fft_numpy zero fft rfft (vslice f index (index + nphi)) nphi L reality in
        if negb (vlen row =? 2 * L) then Err ValueError else
        let* ftm := vwrite ftm t row in
        Ok (index + nphi, ftm))
      (zrange 0 K) (0, vconst (4 * nside - 1) (vconst (2 * L) zero))
      = Ok (ring_start (ring_length nside) K, ftm) /\ vlen ftm = 4 * nside - 1).
    { z_ind.
      - intros _. eexists. split; [reflexivity|]. reflexivity.
      - intros K HK IH HK2. destruct IH as (ftm & E & V); [lia|].
        replace (Z.succ K) with (K + 1) by lia.
        rewrite zrange_snoc, foldM_app, E by lia. cbn [bind foldM].
        rewrite nphi_ring_spec by lia. cbn [bind].
        pose proof (ring_length_pos nside K Hn ltac:(lia)) as R1.
        assert (R2 : ring_length nside K <= 2 * L) by (unfold ring_length; lia).
        assert (R3 : 0 <= ring_start (ring_length nside) K).
        { rewrite <- (ring_start_0 (ring_length nside)). apply ring_start_mono; try lia.
          intros i Hi. pose proof (ring_length_pos nside i Hn ltac:(lia)). lia. }
        assert (R4 : ring_start (ring_length nside) (K + 1) <= 12 * (nside * nside)).
        { rewrite <- ring_start_total by lia. apply ring_start_mono; try lia.
          intros i Hi. pose proof (ring_length_pos nside i Hn ltac:(lia)). lia. }
        pose proof (ring_start_succ (ring_length nside) K HK) as RS1. rewrite RS1 in R4. try rewrite RS1.
        rewrite (vslice_of_len f _ _ (ring_length nside K)) by lia.
        fold (ring_of f nside K).
        destruct (ring_fft_numpy_spec reality (ring_of f nside K) L Hr) as (row & E2 & V2 & G2);
          [cbn [vlen ring_of]; lia|cbn [vlen ring_of]; lia|].
        cbn [vlen ring_of] in E2. fold (ring_of f nside K) in E2. rewrite E2. cbn [bind].
        rewrite V2, Z.eqb_refl. cbn [negb]. rewrite vwrite_in by lia. cbn [bind].
        eexists. split; [reflexivity|]. cbn [vlen]. auto. }
    destruct (P T) as (ftm & E & V); [lia|lia|]. rewrite E. cbn [bind].
    rewrite (zrange_cons T) by lia. cbn [foldM].
    rewrite nphi_ring_spec by lia. cbn [bind].
    assert (R2 : 2 * L < ring_length nside T) by (unfold ring_length; lia).
    unfold ring_fft_numpy.
    destruct (Z.eqb_spec (ring_length nside T) (2 * L)); [lia|]. rewrite andb_false_r. cbn [bind].
    rewrite extension_assert by lia. reflexivity.
  Qed.

  (** *** JAX *)
  Lemma fold_polar reality (f : vec A) L nside : 1 <= nside -> 4 * nside <= 2 * L -> vlen f = 12 * (nside * nside) ->
    forall T, 0 <= T -> T <= nside - 1 -> exists polar,
      fold_left (fun st t =>
          let '(polar, s, e) := st in
          let nphi := 4 * (t + 1) in
          ((polar ++ [(ring_fft_jax zero fft rfft (vslice f s (s + nphi)) nphi L reality,
                      ring_fft_jax zero fft rfft (vslice f (e - nphi) e) nphi L reality)])%list,
            s + nphi, e - nphi))
        (zrange 0 T) ([], 0, 12 * nside ^ 2)
      = (polar, ring_start (ring_length nside) T, ring_start (ring_length nside) (4 * nside - 1 - T)) /\
      List.length polar = Z.to_nat T /\
      forall t d, 0 <= t < T ->
        nth (Z.to_nat t) polar d
        = (ring_fft_jax zero fft rfft (ring_of f nside t) (ring_length nside t) L reality,
           ring_fft_jax zero fft rfft (ring_of f nside (4 * nside - 2 - t)) (ring_length nside (4 * nside - 2 - t)) L reality).
  Proof.
    intros Hn HL Hf. z_ind.
    - intros _. exists []. split; [|split; [reflexivity|intros; lia]].
      cbn [zrange fold_left]. rewrite zrange_nil by lia. cbn [fold_left].
      rewrite Z.sub_0_r, ring_start_total by lia. do 2 f_equal. ring.
    - intros T HT IH HT2. destruct IH as (polar & E & Len & G); [lia|].
      replace (Z.succ T) with (T + 1) by lia.
      rewrite zrange_snoc, fold_left_app, E by lia. cbn [fold_left].
      assert (RL : ring_length nside T = 4 * (T + 1)) by (unfold ring_length; lia).
      assert (RL2 : ring_length nside (4 * nside - 2 - T) = 4 * (T + 1)) by (unfold ring_length; lia).
      pose proof (ring_start_succ (ring_length nside) T HT) as S1. rewrite RL in S1.
      pose proof (ring_start_succ (ring_length nside) (4 * nside - 2 - T) ltac:(lia)) as S2.
      rewrite RL2 in S2. replace (4 * nside - 2 - T + 1) with (4 * nside - 1 - T) in S2 by lia.
      replace (4 * nside - 1 - (T + 1)) with (4 * nside - 2 - T) by lia.
      assert (NN : forall i, 0 <= i < 4 * nside - 1 -> 0 <= ring_length nside i).
      { intros i Hi. pose proof (ring_length_pos nside i Hn ltac:(lia)). lia. }
      assert (R3 : forall i, 0 <= i <= 4 * nside - 1 -> 0 <= ring_start (ring_length nside) i).
      { intros i Hi. rewrite <- (ring_start_0 (ring_length nside)). apply ring_start_mono; try lia.
        intros; apply NN; lia. }
      assert (R4 : forall i, 0 <= i <= 4 * nside - 1 ->
         ring_start (ring_length nside) i <= 12 * (nside * nside)).
      { intros i Hi. rewrite <- ring_start_total by lia. apply ring_start_mono; try lia.
        intros; apply NN; lia. }
      pose proof (R3 T ltac:(lia)). pose proof (R4 (T + 1) ltac:(lia)).
      pose proof (R3 (4 * nside - 2 - T) ltac:(lia)). pose proof (R4 (4 * nside - 1 - T) ltac:(lia)).
      rewrite (vslice_of_len f _ _ (ring_length nside T)) by lia.
      rewrite (vslice_of_len f _ _ (ring_length nside (4 * nside - 2 - T))) by lia.
      replace (ring_start (ring_length nside) (4 * nside - 1 - T) - 4 * (T + 1))
        with (ring_start (ring_length nside) (4 * nside - 2 - T)) by lia.
      fold (ring_of f nside T). fold (ring_of f nside (4 * nside - 2 - T)).
      eexists. split; [rewrite S1; reflexivity|]. split.
      + rewrite app_length, Len. cbn [List.length]. lia.
      + intros t d Ht. destruct (Z.eq_dec t T) as [->|Hne].
        * rewrite app_nth2 by lia. rewrite Len, Nat.sub_diag. cbn [nth].
          rewrite RL2, RL. reflexivity.
        * rewrite app_nth1 by lia. apply G. lia.
  Qed.

  Lemma healpix_fft_jax_gen reality (f : vec A) L nside :
    rfft_ok reality -> 2 <= nside -> 4 * nside <= 2 * L -> vlen f = 12 * (nside * nside) ->
    exists ftm, healpix_fft_jax zero fft rfft f L nside reality = Ok ftm /\
      vlen ftm = 4 * nside - 1 /\
      forall t, 0 <= t < 4 * nside - 1 -> vlen (vat ftm t) = 2 * L /\
        forall k, 0 <= k < 2 * L ->
          vat (vat ftm t) k = row_entry reality (ring_of f nside t) L k.
  Proof using fft_len fft_ext.
    intros Hr Hn HL Hf. unfold healpix_fft_jax.
    destruct (fold_polar reality f L nside ltac:(lia) HL Hf (nside - 1)) as (polar & E & Len & G); [lia|lia|].
    cbv zeta in E. rewrite E. destruct polar as [|p0 polar']; [cbn in Len; lia|].
    set (polar := p0 :: polar') in *. 
    pose proof (ring_start_north nside (nside - 1) ltac:(lia) ltac:(lia) ltac:(lia)) as SN.
    pose proof (ring_start_south nside 0 ltac:(lia) ltac:(lia) ltac:(lia)) as SS.
    replace (4 * nside - 1 - (nside - 1)) with (3 * nside + 0) by lia.
    assert (B1 : 0 <= ring_start (ring_length nside) (nside - 1)) by nia.
    assert (B2 : ring_start (ring_length nside) (3 * nside + 0)
       = ring_start (ring_length nside) (nside - 1) + (2 * nside + 1) * (4 * nside)) by nia.
    assert (B3 : ring_start (ring_length nside) (3 * nside + 0) <= vlen f) by nia.
    rewrite (vslice_of_len f _ _ ((2 * nside + 1) * (4 * nside))) by nia.
    cbn [vlen]. rewrite Z.div_mul by lia.
    eexists. split; [reflexivity|]. cbn [vlen vapp vmap vrev]. rewrite Len.
    split; [lia|].
    assert (RS : forall t, 0 <= t < 4 * nside - 1 ->
      vlen (ring_fft_jax zero fft rfft (ring_of f nside t) (ring_length nside t) L reality) = 2 * L /\
      forall k, 0 <= k < 2 * L ->
        vat (ring_fft_jax zero fft rfft (ring_of f nside t) (ring_length nside t) L reality) k
        = row_entry reality (ring_of f nside t) L k).
    { intros t Ht. pose proof (ring_length_pos nside t ltac:(lia) Ht). pose proof (ring_length_le nside t).
      apply (ring_fft_jax_spec reality (ring_of f nside t) L Hr); cbn [vlen ring_of]; lia. }
    intros t Ht. cbn [vat vlen vapp vmap vrev]. rewrite Z2Nat.id by lia.
    destruct (Z.ltb_spec t (nside - 1)).
    - rewrite G by lia. cbn [fst]. apply RS. lia.
    - destruct (Z.ltb_spec (t - (nside - 1)) (2 * nside + 1)).
      + rewrite (vslice_of_len _ _ _ (ring_length nside t));
          [|nia|nia|cbn [vlen]; nia|unfold ring_length; nia].
        cbn [vat].
        match goal with |- context [ring_fft_jax zero fft rfft ?w _ L reality] => set (c := w) end.
        assert (Ec : veq c (ring_of f nside t)).
        { split; [reflexivity|]. intros i Hi. cbn [vat c ring_of].
          pose proof (ring_start_equator nside (t - (nside - 1)) ltac:(lia) ltac:(lia) ltac:(lia)) as SE.
          f_equal. replace (nside - 1 + (t - (nside - 1))) with t in SE by lia. nia. }
        assert (Lc : ring_length nside t = 4 * nside) by (unfold ring_length; lia).
        pose proof (ring_fft_jax_spec reality c L Hr) as [V2 G2]; [cbn [vlen c]; lia|cbn [vlen c]; lia|].
        cbn [vlen c] in V2, G2. rewrite Lc in V2, G2. fold c in V2, G2. split; [exact V2|].
        intros k Hk. rewrite G2 by auto. apply row_entry_ext; auto; cbn [vlen c]; lia.
      + rewrite G by lia. cbn [snd].
        replace (4 * nside - 2 - (nside - 1 - 1 - (t - (nside - 1) - (2 * nside + 1)))) with t by lia.
        apply RS. lia.
  Qed.

  Lemma healpix_fft_jax_spec (f : vec A) L nside :
    2 <= nside -> 4 * nside <= 2 * L -> vlen f = 12 * (nside * nside) ->
    exists ftm, healpix_fft_jax zero fft rfft f L nside false = Ok ftm /\
      vlen ftm = 4 * nside - 1 /\
      forall t, 0 <= t < 4 * nside - 1 -> vlen (vat ftm t) = 2 * L /\
        forall k, 0 <= k < 2 * L ->
          vat (vat ftm t) k = vat (fft (ring_of f nside t)) ((k - L) mod ring_length nside t).
  Proof using fft_len fft_ext.
    intros. apply (healpix_fft_jax_gen false); auto. intros ?; discriminate.
  Qed.

  (** *** inverse *)
  Hypothesis ifft_len : forall x, vlen (ifft x) = vlen x.
  Hypothesis ifft_ext : forall x y, veq x y -> veq (ifft x) (ifft y).

  (** Folded spectrum of a row in transform order (zero order first). *)
  Definition ring_spectrum (row : vec A) (nphi L : Z) : vec A :=
    mkVec nphi (fun i => folded add (vat row) nphi L ((i + nphi / 2) mod nphi)).

  Lemma folded_full (fm : Z -> A) nphi L i : nphi = 2 * L -> folded add fm nphi L i = fm i.
  Proof.
    intros ->. unfold folded, neg_adds, pos_adds.
    replace (2 * L / 2) with L by (rewrite Z.mul_comm, Z.div_mul; lia).
    replace (L - L) with 0 by lia. rewrite !zrange_nil by lia. cbn. reflexivity.
  Qed.

  Lemma ifft_chunk (row : vec A) nphi L c : 0 < nphi -> vlen c = nphi ->
    (forall i, 0 <= i < nphi -> vat c i = folded add (vat row) nphi L i) ->
    veq (ifft (ifftshift c)) (ifft (ring_spectrum row nphi L)).
  Proof using ifft_ext.
    intros Hn Hc G. apply ifft_ext. split; [cbn; auto|].
    intros i Hi. cbn [vlen ifftshift] in Hi. cbn [vat ifftshift ring_spectrum]. rewrite Hc in *.
    apply G. apply Z.mod_pos_bound. lia.
  Qed.

  (** NumPy rows after the call: the middle of a folded row is overwritten by the folded row. *)
  Definition row_after (row row' : vec A) (nphi L : Z) : Prop :=
    vlen row' = 2 * L /\
    (forall i, 0 <= i < nphi -> vat row' (L - nphi / 2 + i) = folded add (vat row) nphi L i) /\
    (forall j, j < L - nphi / 2 \/ L + nphi / 2 <= j -> vat row' j = vat row j).

  Lemma nphi_half nside t : Z.even (ring_length nside t) = true.
  Proof.
    destruct (ring_length_even nside t) as [k ->]. apply Z.even_spec. exists (2 * k). lia.
  Qed.

  (** Pixel p of a synthesised ring. *)
  Definition chunk_entry (reality : bool) (row : vec A) (nphi L p : Z) : A :=
    if reality && (nphi =? 2 * L) then vat (irfft (mkVec L (fun m => vat row (L + m))) nphi) p
    else vat (ifft (ring_spectrum row nphi L)) p.
  Definition irfft_ok (reality : bool) : Prop := reality = true ->
    (forall x n, vlen (irfft x n) = n) /\
    (forall x y n, veq x y -> veq (irfft x n) (irfft y n)).

  (** The transformed chunk, given the folded row. *)
  Lemma chunk_spec reality (row c : vec A) nphi L : irfft_ok reality -> 0 < nphi -> vlen c = nphi ->
    (forall i, 0 <= i < nphi -> vat c i = folded add (vat row) nphi L i) ->
    let chunk := if reality && (nphi =? 2 * L) then irfft (vslice c (nphi / 2) (vlen c)) nphi
                 else ifft (ifftshift c) in
    vlen chunk = nphi /\ forall p, 0 <= p < nphi -> vat chunk p = chunk_entry reality row nphi L p.
  Proof using ifft_len ifft_ext.
    intros Hr Hn W1 W2. unfold chunk_entry. destruct (reality && (nphi =? 2 * L)) eqn:Er.
    - apply andb_true_iff in Er. destruct Er as [-> E]. apply Z.eqb_eq in E.
      destruct (Hr eq_refl) as [R1 R2]. cbv zeta. split; [apply R1|]. intros p Hp.
      assert (Hh : nphi / 2 = L) by (rewrite E, Z.mul_comm; apply Z.div_mul; lia). rewrite Hh.
      rewrite (vslice_of_len c L (vlen c) L) by lia.
      apply R2; [|rewrite R1; auto]. split; [reflexivity|]. cbn [vlen vat]. intros i Hi.
      rewrite W2 by lia. now apply folded_full.
    - cbv zeta. destruct (ifft_chunk row nphi L c ltac:(lia) W1 W2) as [Q1 Q2].
      assert (Q3 : vlen (ifft (ifftshift c)) = nphi).
      { rewrite ifft_len. cbn. exact W1. }
      split; [exact Q3|]. intros p Hp. apply Q2. lia.
  Qed.

  Lemma healpix_ifft_numpy_gen reality (ftm : vec (vec A)) L nside :
    irfft_ok reality -> 1 <= nside -> 2 * nside <= L -> vlen ftm = 4 * nside - 1 ->
    (forall t, 0 <= t < 4 * nside - 1 -> vlen (vat ftm t) = 2 * L) ->
    exists ftm' f, healpix_ifft_numpy zero add ifft irfft ftm L nside reality = Ok (ftm', f) /\
      vlen f = 12 * (nside * nside) /\
      (forall t, 0 <= t < 4 * nside - 1 -> forall p, 0 <= p < ring_length nside t ->
         vat f (ring_start (ring_length nside) t + p)
         = chunk_entry reality (vat ftm t) (ring_length nside t) L p) /\
      vlen ftm' = 4 * nside - 1 /\
      (forall t, 0 <= t < 4 * nside - 1 ->
         row_after (vat ftm t) (vat ftm' t) (ring_length nside t) L).
  Proof using ifft_len ifft_ext.
    intros Hir Hn HL Hf Hr. unfold healpix_ifft_numpy. rewrite Hf.
    replace (12 * nside ^ 2) with (12 * (nside * nside)) by ring.
    assert (P : forall T, 0 <= T -> T <= 4 * nside - 1 -> exists ftm' f,
      foldM (fun st t =>
        let '(index, ftm, f) := st in
        let* nphi := nphi_ring t nside in
        let* row := vread ftm t in
        let* rs := if nphi =? 2 * L then Ok (row, row) else spectral_folding add row nphi L in
        let '(row', fm_chunk) := rs in
        let* ftm := vwrite ftm t row' in
        let chunk :=
          if reality && (nphi =? 2 * L) then irfft (vslice fm_chunk (nphi / 2) (vlen fm_chunk)) nphi
          else ifft (ifftshift fm_chunk) in
        let* f := vassign f index (index + nphi) chunk in
        Ok (index + nphi, ftm, f))
      (zrange 0 T) (0, ftm, vconst (12 * (nside * nside)) zero)
      = Ok (ring_start (ring_length nside) T, ftm', f) /\
      vlen f = 12 * (nside * nside) /\
      (forall t, 0 <= t < T -> forall p, 0 <= p < ring_length nside t ->
         vat f (ring_start (ring_length nside) t + p)
         = chunk_entry reality (vat ftm t) (ring_length nside t) L p) /\
      vlen ftm' = 4 * nside - 1 /\
      (forall t, 0 <= t < T -> row_after (vat ftm t) (vat ftm' t) (ring_length nside t) L) /\
      (forall t, T <= t -> vat ftm' t = vat ftm t)).
    { z_ind.
      - intros _. exists ftm, (vconst (12 * (nside * nside)) zero).
        split; [reflexivity|]. split; [reflexivity|]. split; [intros; lia|]. split; [auto|].
        split; [intros; lia|]. auto.
      - intros T HT IH HT2. destruct IH as (ftm' & f & E & V & G & V' & G' & O'); [lia|].
        replace (Z.succ T) with (T + 1) by lia.
        rewrite zrange_snoc, foldM_app, E by lia. cbn [bind foldM].
        rewrite nphi_ring_spec by lia. cbn [bind].
        pose proof (ring_length_pos nside T Hn ltac:(lia)) as R1.
        pose proof (ring_length_le nside T) as R2.
        pose proof (nphi_half nside T) as Hev.
        pose proof (even_half _ Hev) as Hh.
        assert (NN : forall i, 0 <= i < 4 * nside - 1 -> 0 <= ring_length nside i).
        { intros i Hi. pose proof (ring_length_pos nside i Hn ltac:(lia)). lia. }
        assert (R3 : 0 <= ring_start (ring_length nside) T).
        { rewrite <- (ring_start_0 (ring_length nside)). apply ring_start_mono; try lia.
          intros; apply NN; lia. }
        assert (R4 : ring_start (ring_length nside) (T + 1) <= 12 * (nside * nside)).
        { rewrite <- ring_start_total by lia. apply ring_start_mono; try lia.
          intros; apply NN; lia. }
        pose proof (ring_start_succ (ring_length nside) T HT) as RS1.
        rewrite vread_in by lia. cbn [bind]. rewrite O' by lia.
        set (nphi := ring_length nside T) in *.
        set (row := vat ftm T) in *.
        assert (Hrow : vlen row = 2 * L) by (apply Hr; lia).
        assert (F : exists row' c, (if nphi =? 2 * L then Ok (row, row) else spectral_folding add row nphi L)
           = Ok (row', c) /\ vlen c = nphi /\
           (forall i, 0 <= i < nphi -> vat c i = folded add (vat row) nphi L i) /\
           row_after row row' nphi L).
        { destruct (Z.eqb_spec nphi (2 * L)) as [En|En].
          - exists row, row. split; [reflexivity|]. split; [lia|].
            split; [intros; symmetry; now apply folded_full|].
            split; [auto|]. split; [|auto].
            intros i Hi. rewrite folded_full by auto. f_equal. lia.
          - destruct (spectral_folding_spec add row nphi L) as (row' & c & E1 & W1 & W2 & W3 & W4 & W5);
              try lia; auto.
            exists row', c. split; [exact E1|]. split; [auto|]. split; [auto|].
            split; [auto|]. split; auto. }
        destruct F as (row' & c & E1 & W1 & W2 & W3). rewrite E1. cbn [bind].
        rewrite vwrite_in by lia. cbn [bind].
        destruct (chunk_spec reality row c nphi L Hir ltac:(lia) W1 W2) as [Q3 Q2].
        match goal with |- context [vassign f _ _ ?w] => set (chunk := w) in * end.
        rewrite vassign_in by lia. cbn [bind].
        eexists _, _. rewrite RS1. split; [reflexivity|]. cbn [vlen vat].
        split; [exact V|]. split; [|split; [exact V'|split]].
        + intros t Ht p Hp. destruct (Z.eq_dec t T) as [->|Hne].
          * match goal with |- context [if ?b then _ else _] => replace b with true by (unfold nphi in *; lia) end.
            replace (ring_start (ring_length nside) T + p - ring_start (ring_length nside) T) with p by lia.
            apply Q2. exact Hp.
          * assert (ring_start (ring_length nside) (t + 1) <= ring_start (ring_length nside) T).
            { apply ring_start_mono; try lia. intros; apply NN; lia. }
            rewrite ring_start_succ in H by lia.
            match goal with |- context [if ?b then _ else _] => replace b with false by lia end.
            apply G; lia.
        + intros t Ht. destruct (Z.eq_dec t T) as [->|Hne].
          * rewrite vupd_same. exact W3.
          * rewrite vupd_other by auto. apply G'. lia.
        + intros t Ht. rewrite vupd_other by lia. apply O'. lia. }
    destruct (P (4 * nside - 1)) as (ftm' & f & E & V & G & V' & G' & _); [lia|lia|].
    cbv zeta in E. rewrite E. cbn [bind]. exists ftm', f. auto.
  Qed.

  Lemma healpix_ifft_numpy_spec (ftm : vec (vec A)) L nside :
    1 <= nside -> 2 * nside <= L -> vlen ftm = 4 * nside - 1 ->
    (forall t, 0 <= t < 4 * nside - 1 -> vlen (vat ftm t) = 2 * L) ->
    exists ftm' f, healpix_ifft_numpy zero add ifft irfft ftm L nside false = Ok (ftm', f) /\
      vlen f = 12 * (nside * nside) /\
      (forall t, 0 <= t < 4 * nside - 1 -> forall p, 0 <= p < ring_length nside t ->
         vat f (ring_start (ring_length nside) t + p)
         = vat (ifft (ring_spectrum (vat ftm t) (ring_length nside t) L)) p) /\
      vlen ftm' = 4 * nside - 1 /\
      (forall t, 0 <= t < 4 * nside - 1 ->
         row_after (vat ftm t) (vat ftm' t) (ring_length nside t) L).
  Proof using ifft_len ifft_ext.
    intros. apply (healpix_ifft_numpy_gen false); auto. intros ?; discriminate.
  Qed.

  Lemma ring_ifft_jax_spec reality (row : vec A) nphi L :
    irfft_ok reality -> 0 < nphi -> Z.even nphi = true -> nphi <= 2 * L -> vlen row = 2 * L ->
    exists c, ring_ifft_jax add ifft irfft row nphi L reality = Ok c /\ vlen c = nphi /\
      forall p, 0 <= p < nphi -> vat c p = chunk_entry reality row nphi L p.
  Proof using ifft_len ifft_ext.
    intros Hir Hn Hev HL Hrow. unfold ring_ifft_jax.
    assert (F : exists c, (if nphi =? 2 * L then Ok row else spectral_folding_jax add row nphi L)
           = Ok c /\ vlen c = nphi /\
           (forall i, 0 <= i < nphi -> vat c i = folded add (vat row) nphi L i)).
    { destruct (Z.eqb_spec nphi (2 * L)) as [En|En].
      - exists row. split; [reflexivity|]. split; [lia|]. intros; symmetry; now apply folded_full.
      - destruct (spectral_folding_jax_spec add row nphi L) as (c & E1 & W1 & W2); auto.
        exists c. auto. }
    destruct F as (c & E1 & W1 & W2). rewrite E1. cbn [bind].
    destruct (chunk_spec reality row c nphi L Hir ltac:(lia) W1 W2) as [Q3 Q2].
    eexists. split; [reflexivity|]. split; [exact Q3|exact Q2].
  Qed.

  (** Appending ring after ring. *)
  Definition out_upto (reality : bool) (ftm : vec (vec A)) (nside L T : Z) (out : vec A) : Prop :=
    vlen out = ring_start (ring_length nside) T /\
    forall t, 0 <= t < T -> forall p, 0 <= p < ring_length nside t ->
      vat out (ring_start (ring_length nside) t + p)
      = chunk_entry reality (vat ftm t) (ring_length nside t) L p.

  Lemma jax_ring_step reality (ftm : vec (vec A)) L nside (Hir : irfft_ok reality) (Hn : 1 <= nside) (HL : 2 * nside <= L)
    (Hf : vlen ftm = 4 * nside - 1)
    (Hr : forall t, 0 <= t < 4 * nside - 1 -> vlen (vat ftm t) = 2 * L) T i nphi out :
    0 <= T < 4 * nside - 1 -> i = T \/ i = T - (4 * nside - 1) ->
    nphi = ring_length nside T ->
    out_upto reality ftm nside L T out ->
    exists out', (let* row := vread ftm i in
      let* c := ring_ifft_jax add ifft irfft row nphi L reality in Ok (vapp out c)) = Ok out' /\
      out_upto reality ftm nside L (T + 1) out'.
  Proof using ifft_len ifft_ext.
    intros HT Hi -> [V G].
    assert (Ei : vread ftm i = Ok (vat ftm T)).
    { destruct Hi as [->| ->]; [apply vread_in; lia|].
      rewrite vread_neg by lia. rewrite Hf. do 2 f_equal. lia. }
    rewrite Ei. cbn [bind].
    pose proof (ring_length_pos nside T Hn ltac:(lia)) as R1.
    pose proof (ring_length_le nside T) as R2.
    destruct (ring_ifft_jax_spec reality (vat ftm T) (ring_length nside T) L Hir) as (c & E & Vc & Gc);
      [lia|apply nphi_half|lia|apply Hr; lia|].
    rewrite E. cbn [bind]. eexists. split; [reflexivity|].
    split; cbn [vlen vat vapp].
    - rewrite ring_start_succ by lia. lia.
    - intros t Ht p Hp. rewrite V. destruct (Z.eq_dec t T) as [->|Hne].
      + match goal with |- context [if ?b then _ else _] => replace b with false by lia end.
        replace (ring_start (ring_length nside) T + p - ring_start (ring_length nside) T) with p by lia.
        apply Gc. lia.
      + assert (H : ring_start (ring_length nside) (t + 1) <= ring_start (ring_length nside) T).
        { apply ring_start_mono; try lia. intros j Hj.
          pose proof (ring_length_pos nside j Hn ltac:(lia)). lia. }
        rewrite ring_start_succ in H by lia.
        match goal with |- context [if ?b then _ else _] => replace b with true by lia end.
        apply G; lia.
  Qed.

  Lemma healpix_ifft_jax_gen reality (ftm : vec (vec A)) L nside :
    irfft_ok reality -> 1 <= nside -> 2 * nside <= L -> vlen ftm = 4 * nside - 1 ->
    (forall t, 0 <= t < 4 * nside - 1 -> vlen (vat ftm t) = 2 * L) ->
    exists f, healpix_ifft_jax zero add ifft irfft ftm L nside reality = Ok f /\
      vlen f = 12 * (nside * nside) /\
      (forall t, 0 <= t < 4 * nside - 1 -> forall p, 0 <= p < ring_length nside t ->
         vat f (ring_start (ring_length nside) t + p)
         = chunk_entry reality (vat ftm t) (ring_length nside t) L p).
  Proof using ifft_len ifft_ext.
    intros Hir Hn HL Hf Hr. unfold healpix_ifft_jax.
    assert (N : forall T, 0 <= T -> T <= nside - 1 -> exists out,
      foldM (fun out t => let* row := vread ftm t in
         let* c := ring_ifft_jax add ifft irfft row (4 * (t + 1)) L reality in Ok (vapp out c))
        (zrange 0 T) (mkVec 0 (fun _ => zero)) = Ok out /\ out_upto reality ftm nside L T out).
    { z_ind.
      - intros _. eexists. split; [reflexivity|]. split; [reflexivity|intros; lia].
      - intros T HT IH HT2. destruct IH as (out & E & O); [lia|].
        replace (Z.succ T) with (T + 1) by lia.
        rewrite zrange_snoc, foldM_app, E by lia. cbn [bind foldM].
        destruct (jax_ring_step reality ftm L nside Hir Hn HL Hf Hr T T (4 * (T + 1)) out) as (out' & E' & O');
          [lia|auto|unfold ring_length; lia|auto|].
        rewrite E'. cbn [bind foldM]. eauto. }
    destruct (N (nside - 1)) as (o1 & E1 & O1); [lia|lia|]. rewrite E1. cbn [bind].
    assert (M : forall T, 0 <= T -> T <= 2 * nside + 1 -> exists out,
      foldM (fun out t => let* row := vread ftm t in
         let* c := ring_ifft_jax add ifft irfft row (4 * nside) L reality in Ok (vapp out c))
        (zrange (nside - 1) (nside - 1 + T)) o1 = Ok out /\ out_upto reality ftm nside L (nside - 1 + T) out).
    { z_ind.
      - intros _. rewrite zrange_nil by lia. eexists. split; [reflexivity|].
        now rewrite Z.add_0_r.
      - intros T HT IH HT2. destruct IH as (out & E & O); [lia|].
        replace (nside - 1 + Z.succ T) with (nside - 1 + T + 1) by lia.
        rewrite zrange_snoc, foldM_app, E by lia. cbn [bind foldM].
        destruct (jax_ring_step reality ftm L nside Hir Hn HL Hf Hr (nside - 1 + T) (nside - 1 + T) (4 * nside) out)
          as (out' & E' & O'); [lia|auto|unfold ring_length; lia|auto|].
        rewrite E'. cbn [bind foldM]. eauto. }
    destruct (M (2 * nside + 1)) as (o2 & E2 & O2); [lia|lia|].
    replace (nside - 1 + (2 * nside + 1)) with (3 * nside) in * by lia.
    rewrite E2. cbn [bind].
    assert (S : forall T, 0 <= T -> T <= nside - 1 -> forall out, out_upto reality ftm nside L (4 * nside - 1 - T) out ->
      exists out', foldM (fun out t => let* row := vread ftm (- (t + 1)) in
         let* c := ring_ifft_jax add ifft irfft row (4 * (t + 1)) L reality in Ok (vapp out c))
        (rev (zrange 0 T)) out = Ok out' /\ out_upto reality ftm nside L (4 * nside - 1) out').
    { z_ind.
      - intros _ out O. rewrite zrange_nil by lia. exists out. split; [reflexivity|].
        now rewrite Z.sub_0_r in O.
      - intros T HT IH HT2 out O.
        replace (Z.succ T) with (T + 1) in * by lia.
        rewrite zrange_snoc, rev_app_distr by lia. cbn [rev app foldM].
        destruct (jax_ring_step reality ftm L nside Hir Hn HL Hf Hr (4 * nside - 1 - (T + 1)) (- (T + 1)) (4 * (T + 1)) out)
          as (out' & E' & O'); [lia|lia|unfold ring_length; lia|auto|].
        rewrite E'. apply IH; [lia|].
        now replace (4 * nside - 1 - T) with (4 * nside - 1 - (T + 1) + 1) by lia. }
    destruct (S (nside - 1)) with (out := o2) as (o3 & E3 & V3 & G3); [lia|lia| |].
    { now replace (4 * nside - 1 - (nside - 1)) with (3 * nside) by lia. }
    rewrite E3. exists o3. split; [reflexivity|]. split; [|exact G3].
    rewrite V3. now apply ring_start_total.
  Qed.
  Lemma healpix_ifft_jax_spec (ftm : vec (vec A)) L nside :
    1 <= nside -> 2 * nside <= L -> vlen ftm = 4 * nside - 1 ->
    (forall t, 0 <= t < 4 * nside - 1 -> vlen (vat ftm t) = 2 * L) ->
    exists f, healpix_ifft_jax zero add ifft irfft ftm L nside false = Ok f /\
      vlen f = 12 * (nside * nside) /\
      (forall t, 0 <= t < 4 * nside - 1 -> forall p, 0 <= p < ring_length nside t ->
         vat f (ring_start (ring_length nside) t + p)
         = vat (ifft (ring_spectrum (vat ftm t) (ring_length nside t) L)) p).
  Proof using ifft_len ifft_ext.
    intros. apply (healpix_ifft_jax_gen false); auto. intros ?; discriminate.
  Qed.
End Rings.
