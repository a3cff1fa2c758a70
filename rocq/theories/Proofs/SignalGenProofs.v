(** The generated signals, entry by entry. *)
From Coq Require Import ZArith List Lia Reals Lra Bool.
From Coquelicot Require Import Complex.
From Verif Require Import Lib.Py Lib.PyFacts Lib.Vec Lib.VecFacts Lib.Cplx Lib.Sums Lib.Arr Lib.MatFacts Model.Index Model.SignalGen
  Spec.SphericalSpec Spec.SO3Spec Spec.SignalSpec.
Import ListNotations.
Open Scope list_scope.
Open Scope Z_scope.

Lemma tri_succ e : tri (e + 1) = tri e + e.
Proof.
  unfold tri. replace ((e + 1) * (e + 1 - 1)) with (e * (e - 1) + e * 2) by ring. apply Z.div_add. lia.
Qed.

Lemma tri_mono a b : 0 <= a <= b -> tri a <= tri b.
Proof.
  intros H. replace b with (a + Z.of_nat (Z.to_nat (b - a))) by lia. generalize (Z.to_nat (b - a)) as k.
  induction k as [|k IH]; [rewrite Z.add_0_r; lia|].
  replace (a + Z.of_nat (S k)) with (a + Z.of_nat k + 1) by lia. rewrite tri_succ. lia.
Qed.

Lemma flat_map_snoc {X Y} (f : X -> list Y) l x : flat_map f (l ++ [x]) = flat_map f l ++ f x.
Proof. rewrite flat_map_app. cbn. now rewrite app_nil_r. Qed.

Lemma positive_orders_nil lo L : L <= lo -> positive_orders lo L = [].
Proof. intros. unfold positive_orders. now rewrite zrange_nil. Qed.

Lemma positive_orders_snoc lo L : lo <= L -> positive_orders lo (L + 1) = positive_orders lo L ++ map (fun m => (L, m)) (zrange 1 (L + 1)).
Proof. intros. unfold positive_orders. now rewrite zrange_snoc, flat_map_snoc. Qed.

Lemma positive_orders_length lo L : 0 <= lo <= L -> Z.of_nat (List.length (positive_orders lo L)) = pair_count lo L.
Proof.
  intros H. replace L with (lo + Z.of_nat (Z.to_nat (L - lo))) by lia. generalize (Z.to_nat (L - lo)) as k.
  induction k as [|k IH].
  - rewrite Z.add_0_r, positive_orders_nil by lia. unfold pair_count. cbn. lia.
  - replace (lo + Z.of_nat (S k)) with (lo + Z.of_nat k + 1) by lia. rewrite positive_orders_snoc by lia.
    rewrite app_length, map_length, zrange_length. unfold pair_count in *. rewrite tri_succ. lia.
Qed.

Lemma in_positive_orders lo L el m : In (el, m) (positive_orders lo L) <-> lo <= el < L /\ 1 <= m <= el.
Proof.
  unfold positive_orders. rewrite in_flat_map. split.
  - intros (e & He & Hm). apply in_map_iff in Hm as (m' & E & Hm). injection E as -> ->. apply in_zrange in He, Hm. lia.
  - intros [H1 H2]. exists el. split; [apply in_zrange; lia|]. apply in_map_iff. exists m. split; [reflexivity|]. apply in_zrange; lia.
Qed.

Lemma nth_zrange a b k d : (k < Z.to_nat (b - a))%nat -> nth k (zrange a b) d = a + Z.of_nat k.
Proof.
  intros H. unfold zrange. rewrite nth_indep with (d' := a + Z.of_nat 0) by (rewrite map_length, seq_length; lia).
  rewrite map_nth with (f := fun i => a + Z.of_nat i). now rewrite seq_nth by lia.
Qed.

Lemma positive_orders_place lo L k : 0 <= lo <= L -> (k < List.length (positive_orders lo L))%nat ->
  let p := nth k (positive_orders lo L) (0, 0) in pair_place lo (fst p) (snd p) = Z.of_nat k.
Proof.
  intros H. replace L with (lo + Z.of_nat (Z.to_nat (L - lo))) by lia. generalize (Z.to_nat (L - lo)) as j.
  induction j as [|j IH].
  - rewrite Z.add_0_r, positive_orders_nil by lia. cbn. lia.
  - replace (lo + Z.of_nat (S j)) with (lo + Z.of_nat j + 1) by lia. rewrite positive_orders_snoc by lia.
    rewrite app_length, map_length, zrange_length. intros Hk. cbn zeta.
    destruct (lt_dec k (List.length (positive_orders lo (lo + Z.of_nat j)))) as [Hlt|Hge].
    + rewrite app_nth1 by lia. apply IH. exact Hlt.
    + rewrite app_nth2 by lia. set (e := lo + Z.of_nat j) in *.
      rewrite nth_indep with (d' := (e, 0)) by (rewrite map_length, zrange_length; lia).
      rewrite map_nth with (f := fun m => (e, m)). rewrite nth_zrange by lia. cbn [fst snd]. unfold pair_place.
      assert (E := positive_orders_length lo e ltac:(lia)). unfold pair_count in E. lia.
Qed.

(** complex_el_and_m_indices *)
Lemma filter_zrange_le n k : 0 <= n -> filter (fun c => c <=? k) (zrange 0 n) = zrange 0 (Z.min n (k + 1)).
Proof.
  intros H. replace n with (Z.of_nat (Z.to_nat n)) by lia. generalize (Z.to_nat n) as j. clear.
  induction j as [|j IH]; [cbn; rewrite zrange_nil; [reflexivity|lia]|].
  replace (Z.of_nat (S j)) with (Z.of_nat j + 1) by lia. rewrite zrange_snoc, filter_app, IH by lia. cbn.
  destruct (Z.leb_spec (Z.of_nat j) k).
  - replace (Z.min (Z.of_nat j + 1) (k + 1)) with (Z.min (Z.of_nat j) (k + 1) + 1) by lia.
    rewrite zrange_snoc by lia. now replace (Z.min (Z.of_nat j) (k + 1)) with (Z.of_nat j) by lia.
  - rewrite app_nil_r. now replace (Z.min (Z.of_nat j + 1) (k + 1)) with (Z.min (Z.of_nat j) (k + 1)) by lia.
Qed.

Lemma flat_map_ext_in {X Y} (f g : X -> list Y) l : (forall x, In x l -> f x = g x) -> flat_map f l = flat_map g l.
Proof. intros H. induction l as [|x l IH]; [reflexivity|]. cbn. rewrite H, IH by (intros; try apply H; cbn; auto). reflexivity. Qed.

Lemma map_flat_map {X Y Z'} (f : Y -> Z') (g : X -> list Y) l : map f (flat_map g l) = flat_map (fun x => map f (g x)) l.
Proof. induction l as [|x l IH]; [reflexivity|]. cbn. now rewrite map_app, IH. Qed.

Lemma zrange_shift a b k : map (fun x => x + k) (zrange a b) = zrange (a + k) (b + k).
Proof.
  unfold zrange. rewrite map_map. replace (b + k - (a + k)) with (b - a) by lia. apply map_ext. intros; lia.
Qed.

Lemma indices_pairs L : 0 <= L -> map (fun '(el, m) => (el, m + 1)) (tril_indices L (-1)) = positive_orders 0 L.
Proof.
  intros H. unfold tril_indices, positive_orders. rewrite map_flat_map. apply flat_map_ext_in. intros e He. apply in_zrange in He.
  rewrite filter_zrange_le, map_map by lia. replace (Z.min L (e + -1 + 1)) with e by lia.
  replace (zrange 1 (e + 1)) with (map (fun x => x + 1) (zrange 0 e)) by apply (zrange_shift 0 e 1). now rewrite map_map.
Qed.

Lemma filter_flat_map {X Y} (p : Y -> bool) (g : X -> list Y) l : filter p (flat_map g l) = flat_map (fun x => filter p (g x)) l.
Proof. induction l as [|x l IH]; [reflexivity|]. cbn. now rewrite filter_app, IH. Qed.

Lemma filter_const {X} (p : X -> bool) b l : (forall x, In x l -> p x = b) -> filter p l = if b then l else [].
Proof.
  intros H. induction l as [|x l IH]; [now destruct b|]. cbn. rewrite (H x) by (cbn; auto). rewrite IH by (intros; apply H; cbn; auto).
  now destruct b.
Qed.

Lemma indices_eq L lo : 0 <= L -> 0 <= lo -> complex_el_and_m_indices L lo = positive_orders lo L.
Proof.
  intros HL Hlo. unfold complex_el_and_m_indices. rewrite indices_pairs by lia. destruct (Z.ltb_spec 0 lo).
  - unfold positive_orders. rewrite filter_flat_map.
    assert (K : forall e, filter (fun '(el, _) => lo <=? el) (map (fun m => (e, m)) (zrange 1 (e + 1)))
      = if lo <=? e then map (fun m => (e, m)) (zrange 1 (e + 1)) else []).
    { intros e. apply filter_const. intros [a b] Hx. apply in_map_iff in Hx as (m & E & _). now injection E as -> ->. }
    destruct (Z.le_gt_cases lo L).
    + rewrite (zrange_app 0 lo L), flat_map_app by lia.
      rewrite (flat_map_ext_in _ (fun _ => []) (zrange 0 lo)).
      2:{ intros e He. apply in_zrange in He. rewrite K. destruct (Z.leb_spec lo e); [lia|reflexivity]. }
      replace (flat_map (fun _ : Z => []) (zrange 0 lo)) with (@nil (Z * Z)) by (clear; induction (zrange 0 lo); auto).
      cbn [app]. apply flat_map_ext_in. intros e He. apply in_zrange in He. rewrite K. destruct (Z.leb_spec lo e); [reflexivity|lia].
    + rewrite (zrange_nil lo L) by lia. cbn [flat_map].
      rewrite (flat_map_ext_in _ (fun _ => [])). 2:{ intros e He. apply in_zrange in He. rewrite K. destruct (Z.leb_spec lo e); [lia|reflexivity]. }
      clear; induction (zrange 0 L); auto.
  - now replace lo with 0 by lia.
Qed.

(** scatter and gather *)
Lemma scatter_ok {T} (a : ndarray T) ix v (F : list Z -> T) :
  vlen v = Z.of_nat (List.length ix) -> (forall j, In j ix -> in_shape (shape a) j) ->
  (forall k, (k < List.length ix)%nat -> vat v (Z.of_nat k) = F (nth k ix [])) ->
  exists b, scatter a ix v = Ok b /\ shape b = shape a /\
    (forall j, In j ix -> get b j = F j) /\ (forall j, ~ In j ix -> get b j = get a j).
Proof.
  intros Hl Hin Hv. unfold scatter. rewrite Hl, Z.eqb_refl.
  assert (Hvl : (List.length ix <= Z.to_nat (vlen v))%nat) by lia. clear Hl.
  revert a Hin Hv Hvl. 
  assert (G : forall pre post a, pre ++ post = ix -> (forall j, In j ix -> in_shape (shape a) j) ->
    (forall k, (k < List.length ix)%nat -> vat v (Z.of_nat k) = F (nth k ix [])) -> (List.length ix <= Z.to_nat (vlen v))%nat ->
    exists b, foldM (fun a '(k, i) => let* x := vread v (Z.of_nat k) in awrite a i x)
       (combine (seq (List.length pre) (List.length post)) post) a = Ok b /\ shape b = shape a /\
    (forall j, In j post -> get b j = F j) /\ (forall j, ~ In j post -> get b j = get a j)).
  { intros pre post. revert pre. induction post as [|i post IH]; intros pre a E Hin Hv Hvl.
    - cbn. exists a. repeat split; auto. intros j [].
    - cbn [List.length seq combine foldM].
      assert (Hlen : (List.length pre < List.length ix)%nat) by (rewrite <- E, app_length; cbn; lia).
      assert (Ev : vread v (Z.of_nat (List.length pre)) = Ok (vat v (Z.of_nat (List.length pre)))) by (unfold vread; now rewrite norm_index_in by lia).
      rewrite Ev. cbn [bind].
      assert (Hi : in_shape (shape a) i) by (apply Hin; rewrite <- E; apply in_app_iff; right; cbn; auto).
      rewrite awrite_in by exact Hi.
      destruct (IH (pre ++ [i]) (mkArr (shape a) (upd (get a) i (vat v (Z.of_nat (List.length pre)))))) as (b & Eb & Sb & B1 & B2).
      { now rewrite <- app_assoc. } { exact Hin. } { exact Hv. } { exact Hvl. }
      rewrite app_length in Eb. cbn [List.length] in Eb. rewrite Nat.add_1_r in Eb. rewrite Eb.
      exists b. split; [reflexivity|]. split; [exact Sb|]. split.
      + intros j Hj. destruct (in_dec (list_eq_dec Z.eq_dec) j post) as [Hp|Hp]; [now apply B1|].
        destruct Hj as [<-|Hj]; [|tauto]. rewrite B2 by exact Hp. cbn [get]. rewrite upd_same, Hv by lia.
        f_equal. rewrite <- E, app_nth2, Nat.sub_diag by lia. reflexivity.
      + intros j Hj. cbn in Hj. rewrite B2 by tauto. cbn [get]. apply upd_other. intros ->. tauto. }
  intros a Hin Hv Hvl. exact (G [] ix a eq_refl Hin Hv Hvl).
Qed.

Lemma mapM_aread (a : ndarray C) ix : (forall j, In j ix -> in_shape (shape a) j) -> mapM (aread a) ix = Ok (map (get a) ix).
Proof.
  induction ix as [|i ix IH]; intros H; [reflexivity|]. cbn [mapM map]. rewrite aread_in by (apply H; cbn; auto). cbn [bind].
  rewrite IH by (intros; apply H; cbn; auto). reflexivity.
Qed.

Lemma gather_ok (a : ndarray C) ix : (forall j, In j ix -> in_shape (shape a) j) ->
  exists v, gather a ix = Ok v /\ vlen v = Z.of_nat (List.length ix) /\
    forall k, (k < List.length ix)%nat -> vat v (Z.of_nat k) = get a (nth k ix []).
Proof.
  intros H. unfold gather. rewrite mapM_aread by exact H. cbn [bind]. eexists. split; [reflexivity|]. split.
  - cbn. now rewrite map_length.
  - intros k Hk. cbn [vec_of vat]. rewrite Nat2Z.id, nth_indep with (d' := get a []) by (now rewrite map_length). now rewrite map_nth.
Qed.

Lemma complex_normal_ok r size : 0 <= size -> exists v,
  complex_normal r size 2 = Ok (v, mkRng (draws r) (used r + 2 * size)) /\ vlen v = size /\
  forall i, vat v i = (draws r (used r + i), draws r (used r + size + i)).
Proof.
  intros H. unfold complex_normal, standard_normal. destruct (Z.ltb_spec size 0); [lia|]. cbn [bind].
  destruct (Z.ltb_spec size 0); [lia|]. cbn [bind draws used].
  eexists. split; [f_equal; f_equal; f_equal; ring|]. split; [reflexivity|]. intros i. cbn [vat].
  replace (2 / 2)%R with 1%R by field. rewrite sqrt_1. apply C_eq; cbn; ring.
Qed.

Lemma rows_eq n s : 0 <= s <= n -> rows n s n = zrange s n.
Proof. intros H. unfold rows. rewrite slice_lo_in, slice_len_in by lia. now replace (s + (n - s)) with n by lia. Qed.

(** ** generate_flm *)
Definition in_flm (L : Z) (el c : Z) : Prop := 0 <= el < L /\ 0 <= c < 2 * L - 1.

Lemma in_axis2 L lo j : In j (map (fun el => [el; L - 1]) (zrange lo L)) <-> exists el, j = [el; L - 1] /\ lo <= el < L.
Proof.
  rewrite in_map_iff. split; intros (el & H1 & H2); exists el; [apply in_zrange in H2; auto | split; [auto | apply in_zrange; auto]].
Qed.

Lemma in_side2 L lo s j : In j (map (fun '(el, m) => [el; L - 1 + s * m]) (positive_orders lo L)) <->
  exists el m, j = [el; L - 1 + s * m] /\ lo <= el < L /\ 1 <= m <= el.
Proof.
  rewrite in_map_iff. split.
  - intros ((el, m) & H1 & H2). apply in_positive_orders in H2. exists el, m. intuition.
  - intros (el & m & H1 & H2). exists (el, m). split; [auto|]. apply in_positive_orders. tauto.
Qed.

Lemma nth_map_pair {Y} (f : Z * Z -> Y) l k d : (k < List.length l)%nat -> nth k (map f l) d = f (nth k l (0, 0)).
Proof. intros H. rewrite nth_indep with (d' := f (0, 0)) by (now rewrite map_length). apply map_nth. Qed.

Lemma nth_map_z {Y} (f : Z -> Y) a b k d : (k < Z.to_nat (b - a))%nat -> nth k (map f (zrange a b)) d = f (a + Z.of_nat k).
Proof.
  intros H. rewrite nth_indep with (d' := f 0) by (rewrite map_length, zrange_length; lia). rewrite map_nth, nth_zrange by lia. reflexivity.
Qed.

Ltac zb := repeat match goal with
  | |- context [?a =? ?b] => destruct (Z.eqb_spec a b); try lia
  | |- context [?a <? ?b] => destruct (Z.ltb_spec a b); try lia
  | |- context [?a <=? ?b] => destruct (Z.leb_spec a b); try lia
  end; cbn [andb orb negb].

Lemma axis_ok L lo (a : ndarray C) v c : 0 <= lo <= L -> 1 <= L -> holds_coefficients L a c -> vlen v = L - lo ->
  exists b, scatter a (map (fun el => [el; L - 1]) (rows L lo L)) v = Ok b /\
    holds_coefficients L b (fun el m => if (m =? 0) && (lo <=? el) then vat v (el - lo) else c el m).
Proof.
  intros Hlo HL [Sa Ha] Hv. rewrite rows_eq by lia.
  destruct (scatter_ok a (map (fun el => [el; L - 1]) (zrange lo L)) v (fun j => vat v (nth 0 j 0 - lo))) as (b & E & S & B1 & B2).
  { rewrite map_length, zrange_length. lia. }
  { intros j Hj. apply in_axis2 in Hj as (el & -> & H). rewrite Sa. cbn [in_shape]. lia. }
  { intros k Hk. rewrite map_length, zrange_length in Hk. rewrite nth_map_z by lia. cbn [nth]. f_equal. lia. }
  exists b. split; [exact E|]. split; [congruence|]. intros el m Hel Hm. unfold stored in *.
  destruct ((m =? 0) && (lo <=? el)) eqn:Q.
  - apply andb_true_iff in Q as [Q1 Q2]. apply Z.eqb_eq in Q1. apply Z.leb_le in Q2. subst m. rewrite B1; [reflexivity|].
    apply in_axis2. exists el. split; [f_equal|lia].
  - rewrite B2; [now apply Ha|]. intros Hj. apply in_axis2 in Hj as (e & Ej & He). injection Ej as -> Em.
    apply andb_false_iff in Q as [Q|Q]; [apply Z.eqb_neq in Q|apply Z.leb_gt in Q]; lia.
Qed.

Lemma side_ok L lo s (a : ndarray C) v c F : 0 <= lo <= L -> 1 <= L -> s = 1 \/ s = -1 -> holds_coefficients L a c ->
  vlen v = Z.of_nat (List.length (positive_orders lo L)) ->
  (forall k, (k < List.length (positive_orders lo L))%nat ->
     vat v (Z.of_nat k) = F (fst (nth k (positive_orders lo L) (0, 0))) (snd (nth k (positive_orders lo L) (0, 0)))) ->
  exists b, scatter a (map (fun '(el, m) => [el; L - 1 + s * m]) (positive_orders lo L)) v = Ok b /\
    holds_coefficients L b (fun el m => if (lo <=? el) && (0 <? s * m) && (s * m <=? el) then F el (s * m) else c el m).
Proof.
  intros Hlo HL Hs [Sa Ha] Hl Hv.
  destruct (scatter_ok a (map (fun '(el, m) => [el; L - 1 + s * m]) (positive_orders lo L)) v
    (fun j => F (nth 0 j 0) (s * (nth 1 j 0 - (L - 1))))) as (b & E & S & B1 & B2).
  { now rewrite map_length. }
  { intros j Hj. apply in_side2 in Hj as (el & m & -> & H). rewrite Sa. cbn [in_shape]. destruct Hs as [-> | ->]; lia. }
  { intros k Hk. rewrite map_length in Hk. rewrite nth_map_pair by lia. rewrite Hv by lia.
    destruct (nth k (positive_orders lo L) (0, 0)) as [el m]. cbn [fst snd nth]. f_equal.
    destruct Hs as [-> | ->]; ring. }
  exists b. split; [exact E|]. split; [congruence|]. intros el m Hel Hm. unfold stored in *.
  destruct ((lo <=? el) && (0 <? s * m) && (s * m <=? el)) eqn:Q.
  - apply andb_true_iff in Q as [Q Q3]. apply andb_true_iff in Q as [Q1 Q2].
    apply Z.leb_le in Q1, Q3. apply Z.ltb_lt in Q2. rewrite B1.
    + cbn [nth]. f_equal. ring.
    + apply in_side2. exists el, (s * m). split; [|lia]. f_equal. f_equal. destruct Hs as [-> | ->]; ring.
  - rewrite B2; [now apply Ha|]. intros Hj. apply in_side2 in Hj as (e & m' & Ej & He & Hm'). injection Ej as -> Em.
    assert (m = s * m') by lia. assert (m' = s * m) by (destruct Hs as [-> | ->]; lia). rewrite <- H0 in Q.
    destruct (Z.leb_spec lo e); [|lia]. destruct (Z.ltb_spec 0 m'); [|lia]. destruct (Z.leb_spec m' e); [|lia]. discriminate.
Qed.

Lemma side_read L lo (a : ndarray C) c : 0 <= lo <= L -> 1 <= L -> holds_coefficients L a c ->
  exists v, gather a (map (fun '(el, m) => [el; L - 1 + m]) (positive_orders lo L)) = Ok v /\
    vlen v = Z.of_nat (List.length (positive_orders lo L)) /\
    forall k, (k < List.length (positive_orders lo L))%nat ->
     vat v (Z.of_nat k) = c (fst (nth k (positive_orders lo L) (0, 0))) (snd (nth k (positive_orders lo L) (0, 0))).
Proof.
  intros Hlo HL [Sa Ha].
  destruct (gather_ok a (map (fun '(el, m) => [el; L - 1 + m]) (positive_orders lo L))) as (v & E & Hl & Hv).
  { intros j Hj. apply in_map_iff in Hj as ((el, m) & <- & H). apply in_positive_orders in H. rewrite Sa. cbn [in_shape]. lia. }
  rewrite map_length in *. exists v. split; [exact E|]. split; [exact Hl|]. intros k Hk. rewrite Hv by lia. rewrite nth_map_pair by lia.
  assert (H := nth_In (positive_orders lo L) (0, 0) Hk). destruct (nth k (positive_orders lo L) (0, 0)) as [el m].
  apply in_positive_orders in H. cbn [fst snd]. rewrite <- Ha by lia. unfold stored. f_equal. f_equal. f_equal. ring.
Qed.

Lemma zeros_hold L : holds_coefficients L (zeros (RtoC 0) (flm_shape L)) (fun _ _ => RtoC 0).
Proof. split; reflexivity. Qed.

Lemma sides_pos L lo : map (fun '(el, m) => [el; L - 1 + 1 * m]) (positive_orders lo L) = map (fun '(el, m) => [el; L - 1 + m]) (positive_orders lo L).
Proof. apply map_ext. intros [el m]. now rewrite Z.mul_1_l. Qed.
Lemma sides_neg L lo : map (fun '(el, m) => [el; L - 1 + -1 * m]) (positive_orders lo L) = map (fun '(el, m) => [el; L - 1 - m]) (positive_orders lo L).
Proof. apply map_ext. intros [el m]. now replace (L - 1 + -1 * m) with (L - 1 - m) by ring. Qed.

Lemma holds_ext L (a : ndarray C) c d : holds_coefficients L a c ->
  (forall el m, 0 <= el < L -> - L < m < L -> c el m = d el m) -> holds_coefficients L a d.
Proof. intros [S H] E. split; [exact S|]. intros. rewrite H by assumption. now apply E. Qed.

Lemma generate_flm_ok r L Lo spin reality : 1 <= L -> Z.max Lo (Z.abs spin) <= L ->
  let lo := Z.max Lo (Z.abs spin) in
  exists flm, generate_flm r L Lo spin reality = Ok (flm, mkRng (draws r) (used r + flm_draws lo L reality)) /\
    holds_coefficients L flm (flm_value (draws r) (used r) reality lo L).
Proof.
  intros HL Hlo0 lo. assert (Hlo : 0 <= lo <= L) by lia. unfold generate_flm. fold lo. clearbody lo. clear Hlo0.
  destruct (Z.ltb_spec L 1); [lia|]. cbn [bind].
  unfold standard_normal at 1. destruct (Z.ltb_spec (L - lo) 0); [lia|]. cbn [bind].
  rewrite indices_eq by lia. set (ix := positive_orders lo L). assert (Hc := positive_orders_length lo L Hlo). fold ix in Hc.
  destruct (axis_ok L lo _ (vmap RtoC (mkVec (L - lo) (fun i => draws r (used r + i)))) _ Hlo HL (zeros_hold L)) as (b1 & E1 & H1); [reflexivity|].
  rewrite E1. cbn [bind].
  destruct (complex_normal_ok (mkRng (draws r) (used r + (L - lo))) (Z.of_nat (List.length ix))) as (v & Ev & Lv & Vv); [lia|].
  rewrite Ev. cbn [bind draws used] in *.
  destruct (side_ok L lo 1 b1 v _ (fun el m => value (draws r) (used r) (flm_source lo L el m)) Hlo HL ltac:(auto) H1) as (b2 & E2 & H2); [exact Lv| |].
  { intros k Hk. assert (P := positive_orders_place lo L k Hlo Hk). cbn zeta in P. assert (I := nth_In _ (0, 0) Hk).
    rewrite Vv, Hc. destruct (nth k (positive_orders lo L) (0, 0)) as [el m]. apply in_positive_orders in I. cbn [fst snd] in *.
    unfold flm_source. zb. cbn [value]. rewrite P. f_equal; f_equal; ring. }
  rewrite sides_pos in E2. fold ix in E2. rewrite E2. cbn [bind].
  destruct reality.
  - destruct (side_read L lo b2 _ Hlo HL H2) as (z & Ez & Lz & Vz). fold ix in Ez. rewrite Ez. cbn [bind].
    destruct (side_ok L lo (-1) b2 (mkVec (vlen z) (fun i => (RtoC (sgn (snd (nth (Z.to_nat i) ix (0, 0)))) * Cconj (vat z i))%C)) _
      (fun el m => (RtoC (sgn m) * Cconj (value (draws r) (used r) (flm_source lo L el m)))%C) Hlo HL ltac:(auto) H2) as (b3 & E3 & H3); [exact Lz| |].
    { intros k Hk. cbn [vat]. rewrite Nat2Z.id, Vz by exact Hk. assert (I := nth_In _ (0, 0) Hk). fold ix in I. fold ix.
      destruct (nth k ix (0, 0)) as [el m]. apply in_positive_orders in I. cbn [fst snd]. rewrite Z.mul_1_l. zb. reflexivity. }
    rewrite sides_neg in E3. fold ix in E3. rewrite E3. cbn [bind]. exists b3. split.
    + unfold flm_draws. rewrite Hc. f_equal. f_equal. f_equal. ring.
    + apply (holds_ext _ _ _ _ H3). intros el m Hel Hm. unfold flm_value, flm_source. replace (-1 * m) with (- m) by ring. rewrite Z.mul_1_l.
      zb; try reflexivity; cbn [value vmap vat]; try (apply C_eq; cbn; ring); now rewrite ?sgn_opp.
  - destruct (complex_normal_ok (mkRng (draws r) (used r + (L - lo) + 2 * Z.of_nat (List.length ix))) (Z.of_nat (List.length ix))) as (w & Ew & Lw & Vw); [lia|].
    rewrite Ew. cbn [bind draws used] in *.
    destruct (side_ok L lo (-1) b2 w _ (fun el m => value (draws r) (used r) (flm_source lo L el (- m))) Hlo HL ltac:(auto) H2) as (b3 & E3 & H3); [exact Lw| |].
    { intros k Hk. assert (P := positive_orders_place lo L k Hlo Hk). cbn zeta in P. assert (I := nth_In _ (0, 0) Hk).
      rewrite Vw, Hc. destruct (nth k (positive_orders lo L) (0, 0)) as [el m]. apply in_positive_orders in I. cbn [fst snd] in *.
      unfold flm_source. zb. cbn [value]. rewrite Z.opp_involutive, P. f_equal; f_equal; ring. }
    rewrite sides_neg in E3. fold ix in E3. rewrite E3. cbn [bind]. exists b3. split.
    + unfold flm_draws. rewrite Hc. f_equal. f_equal. f_equal. ring.
    + apply (holds_ext _ _ _ _ H3). intros el m Hel Hm. unfold flm_value. cbn [andb]. replace (- (-1 * m)) with m by ring.
      replace (-1 * m) with (- m) by ring. rewrite !Z.mul_1_l. unfold flm_source. zb; reflexivity.
Qed.

(** ** generate_flmn *)
Lemma in_axis3 L p lo j : In j (map (fun el => [p; el; L - 1]) (zrange lo L)) <-> exists el, j = [p; el; L - 1] /\ lo <= el < L.
Proof.
  rewrite in_map_iff. split; intros (el & H1 & H2); exists el; [apply in_zrange in H2; auto | split; [auto | apply in_zrange; auto]].
Qed.

Lemma in_side3 L p lo s j : In j (map (fun '(el, m) => [p; el; L - 1 + s * m]) (positive_orders lo L)) <->
  exists el m, j = [p; el; L - 1 + s * m] /\ lo <= el < L /\ 1 <= m <= el.
Proof.
  rewrite in_map_iff. split.
  - intros ((el, m) & H1 & H2). apply in_positive_orders in H2. exists el, m. intuition.
  - intros (el & m & H1 & H2). exists (el, m). split; [auto|]. apply in_positive_orders. tauto.
Qed.

Section Planes.
Context (L N : Z) (HL : 1 <= L) (HN : 1 <= N).

Lemma axis3_ok p q lo (a : ndarray C) v c : 0 <= lo <= L -> p = N - 1 + q -> - N < q < N -> holds_coefficients3 L N a c -> vlen v = L - lo ->
  exists b, scatter a (map (fun el => [p; el; L - 1]) (rows L lo L)) v = Ok b /\
    holds_coefficients3 L N b (fun n el m => if (n =? q) && (m =? 0) && (lo <=? el) then vat v (el - lo) else c n el m).
Proof using HL HN.
  intros Hlo Hp Hq [Sa Ha] Hv. rewrite rows_eq by lia.
  destruct (scatter_ok a (map (fun el => [p; el; L - 1]) (zrange lo L)) v (fun j => vat v (nth 1 j 0 - lo))) as (b & E & S & B1 & B2).
  { rewrite map_length, zrange_length. lia. }
  { intros j Hj. apply in_axis3 in Hj as (el & -> & H). rewrite Sa. cbn [in_shape]. lia. }
  { intros k Hk. rewrite map_length, zrange_length in Hk. rewrite nth_map_z by lia. cbn [nth]. f_equal. lia. }
  exists b. split; [exact E|]. split; [congruence|]. intros n el m Hn Hel Hm. unfold stored3 in *.
  destruct ((n =? q) && (m =? 0) && (lo <=? el)) eqn:Q.
  - apply andb_true_iff in Q as [Q Q2]. apply andb_true_iff in Q as [Q0 Q1]. apply Z.eqb_eq in Q0, Q1. apply Z.leb_le in Q2. subst m n.
    rewrite B1; [reflexivity|]. apply in_axis3. exists el. split; [f_equal; lia|lia].
  - rewrite B2; [now apply Ha|]. intros Hj. apply in_axis3 in Hj as (e & Ej & He). injection Ej as En -> Em.
    apply andb_false_iff in Q as [Q|Q]; [apply andb_false_iff in Q as [Q|Q]; apply Z.eqb_neq in Q|apply Z.leb_gt in Q]; lia.
Qed.

Lemma axis3_read p q lo (a : ndarray C) c : 0 <= lo <= L -> p = N - 1 + q -> - N < q < N -> holds_coefficients3 L N a c ->
  exists v, gather a (map (fun el => [p; el; L - 1]) (rows L lo L)) = Ok v /\ vlen v = L - lo /\
    forall el, lo <= el < L -> vat v (el - lo) = c q el 0.
Proof using HL HN.
  intros Hlo Hp Hq [Sa Ha]. rewrite rows_eq by lia.
  destruct (gather_ok a (map (fun el => [p; el; L - 1]) (zrange lo L))) as (v & E & Hl & Hv).
  { intros j Hj. apply in_axis3 in Hj as (el & -> & H). rewrite Sa. cbn [in_shape]. lia. }
  rewrite map_length, zrange_length in *. exists v. split; [exact E|]. split; [lia|]. intros el Hel.
  replace (el - lo) with (Z.of_nat (Z.to_nat (el - lo))) by lia. rewrite Hv by lia. rewrite nth_map_z by lia.
  rewrite <- Ha by lia. unfold stored3. f_equal. replace (N - 1 + q) with (q + N - 1) in Hp by lia. rewrite Hp.
  repeat (f_equal; try lia).
Qed.

Lemma side3_ok p q lo s (a : ndarray C) v c F : 0 <= lo <= L -> p = N - 1 + q -> - N < q < N -> s = 1 \/ s = -1 -> holds_coefficients3 L N a c ->
  vlen v = Z.of_nat (List.length (positive_orders lo L)) ->
  (forall k, (k < List.length (positive_orders lo L))%nat ->
     vat v (Z.of_nat k) = F (fst (nth k (positive_orders lo L) (0, 0))) (snd (nth k (positive_orders lo L) (0, 0)))) ->
  exists b, scatter a (map (fun '(el, m) => [p; el; L - 1 + s * m]) (positive_orders lo L)) v = Ok b /\
    holds_coefficients3 L N b (fun n el m => if (n =? q) && (lo <=? el) && (0 <? s * m) && (s * m <=? el) then F el (s * m) else c n el m).
Proof using HL HN.
  intros Hlo Hp Hq Hs [Sa Ha] Hl Hv.
  destruct (scatter_ok a (map (fun '(el, m) => [p; el; L - 1 + s * m]) (positive_orders lo L)) v
    (fun j => F (nth 1 j 0) (s * (nth 2 j 0 - (L - 1))))) as (b & E & S & B1 & B2).
  { now rewrite map_length. }
  { intros j Hj. apply in_side3 in Hj as (el & m & -> & H). rewrite Sa. cbn [in_shape]. destruct Hs as [-> | ->]; lia. }
  { intros k Hk. rewrite map_length in Hk. rewrite nth_map_pair by lia. rewrite Hv by lia.
    destruct (nth k (positive_orders lo L) (0, 0)) as [el m]. cbn [fst snd nth]. f_equal.
    destruct Hs as [-> | ->]; ring. }
  exists b. split; [exact E|]. split; [congruence|]. intros n el m Hn Hel Hm. unfold stored3 in *.
  destruct ((n =? q) && (lo <=? el) && (0 <? s * m) && (s * m <=? el)) eqn:Q.
  - apply andb_true_iff in Q as [Q Q3]. apply andb_true_iff in Q as [Q Q2]. apply andb_true_iff in Q as [Q0 Q1].
    apply Z.eqb_eq in Q0. apply Z.leb_le in Q1, Q3. apply Z.ltb_lt in Q2. rewrite B1.
    + cbn [nth]. f_equal. ring.
    + apply in_side3. exists el, (s * m). split; [|lia]. f_equal; [lia|]. f_equal. f_equal. destruct Hs as [-> | ->]; ring.
  - rewrite B2; [now apply Ha|]. intros Hj. apply in_side3 in Hj as (e & m' & Ej & He & Hm'). injection Ej as En -> Em.
    assert (m = s * m') by lia. assert (m' = s * m) by (destruct Hs as [-> | ->]; lia). rewrite <- H0 in Q.
    destruct (Z.eqb_spec n q); [|lia].
    destruct (Z.leb_spec lo e); [|lia]. destruct (Z.ltb_spec 0 m'); [|lia]. destruct (Z.leb_spec m' e); [|lia]. discriminate.
Qed.

Lemma side3_read p q lo (a : ndarray C) c : 0 <= lo <= L -> p = N - 1 + q -> - N < q < N -> holds_coefficients3 L N a c ->
  exists v, gather a (map (fun '(el, m) => [p; el; L - 1 + m]) (positive_orders lo L)) = Ok v /\
    vlen v = Z.of_nat (List.length (positive_orders lo L)) /\
    forall k, (k < List.length (positive_orders lo L))%nat ->
     vat v (Z.of_nat k) = c q (fst (nth k (positive_orders lo L) (0, 0))) (snd (nth k (positive_orders lo L) (0, 0))).
Proof using HL HN.
  intros Hlo Hp Hq [Sa Ha].
  destruct (gather_ok a (map (fun '(el, m) => [p; el; L - 1 + m]) (positive_orders lo L))) as (v & E & Hl & Hv).
  { intros j Hj. apply in_map_iff in Hj as ((el, m) & <- & H). apply in_positive_orders in H. rewrite Sa. cbn [in_shape]. lia. }
  rewrite map_length in *. exists v. split; [exact E|]. split; [exact Hl|]. intros k Hk. rewrite Hv by lia. rewrite nth_map_pair by lia.
  assert (H := nth_In (positive_orders lo L) (0, 0) Hk). destruct (nth k (positive_orders lo L) (0, 0)) as [el m].
  apply in_positive_orders in H. cbn [fst snd]. rewrite <- Ha by lia. unfold stored3. replace p with (q + N - 1) by lia.
  replace (m + L - 1) with (L - 1 + m) by lia. reflexivity.
Qed.

Lemma holds3_ext (a : ndarray C) c d : holds_coefficients3 L N a c ->
  (forall n el m, - N < n < N -> 0 <= el < L -> - L < m < L -> c n el m = d n el m) -> holds_coefficients3 L N a d.
Proof. intros [S H] E. split; [exact S|]. intros. rewrite H by assumption. now apply E. Qed.
End Planes.

(** the entries written before the pass of the loop for n *)
Definition written (reality : bool) (n n' m : Z) : bool :=
  if reality && negb (primary3 n' m) then - n' <? n else n' <? n.

Lemma plane_start_succ reality L N Lo n : - N + 1 <= n ->
  plane_start reality L N Lo (n + 1) = plane_start reality L N Lo n + plane_draws reality L Lo n.
Proof.
  intros H. unfold plane_start. rewrite zrange_snoc by lia. induction (zrange (- N + 1) n) as [|x l IH]; cbn; [lia|]. cbn in IH. lia.
Qed.

Lemma sides3_pos L p lo : map (fun '(el, m) => [p; el; L - 1 + 1 * m]) (positive_orders lo L) = map (fun '(el, m) => [p; el; L - 1 + m]) (positive_orders lo L).
Proof. apply map_ext. intros [el m]. now rewrite Z.mul_1_l. Qed.
Lemma sides3_neg L p lo : map (fun '(el, m) => [p; el; L - 1 + -1 * m]) (positive_orders lo L) = map (fun '(el, m) => [p; el; L - 1 - m]) (positive_orders lo L).
Proof. apply map_ext. intros [el m]. now replace (L - 1 + -1 * m) with (L - 1 - m) by ring. Qed.

(** the draws for m = 0 in the pass for n *)
Lemma axis_step r L N Lo reality n (a : ndarray C) : 1 <= L -> 1 <= N -> - N < n < N -> low3 Lo n <= L ->
  let b := used r + plane_start reality L N Lo n in
  let lo := low3 Lo n in
  let V := flmn_value (draws r) (used r) reality L N Lo in
  forall c, holds_coefficients3 L N a c ->
  let axis p := map (fun el => [p; el; L - 1]) (rows L lo L) in
  exists a', (if reality then
      if n =? 0 then
        let* (x, r) := standard_normal (mkRng (draws r) b) (L - lo) in
        let* flmn := scatter a (axis (N - 1)) (vmap RtoC x) in
        Ok (flmn, r)
      else if 0 <? n then
        let* (z, r) := complex_normal (mkRng (draws r) b) (L - lo) 2 in
        let* flmn := scatter a (axis (N - 1 + n)) z in
        let* z := gather flmn (axis (N - 1 + n)) in
        let* flmn := scatter flmn (axis (N - 1 - n)) (vmap (fun z => (RtoC (sgn n) * Cconj z)%C) z) in
        Ok (flmn, r)
      else Ok (a, mkRng (draws r) b)
    else
      let* (z, r) := complex_normal (mkRng (draws r) b) (L - lo) 2 in
      let* flmn := scatter a (axis (N - 1 + n)) z in
      Ok (flmn, r)) = Ok (a', mkRng (draws r) (b + axis_draws reality L Lo n)) /\
    holds_coefficients3 L N a' (fun n' el m =>
      if (m =? 0) && ((n' =? n) && (negb reality || (0 <=? n)) || reality && (n' =? - n) && (0 <=? n)) && (lo <=? el) then V n' el m else c n' el m).
Proof.
  intros HL HN Hn Hlo b lo V c Hc axis. assert (Hlo' : 0 <= lo <= L) by (unfold lo, low3 in *; lia). destruct reality.
  - destruct (Z.eqb_spec n 0) as [-> | Hn0]; [|destruct (Z.ltb_spec 0 n)].
    + unfold standard_normal. destruct (Z.ltb_spec (L - lo) 0); [lia|]. cbn [bind draws used].
      destruct (axis3_ok L N HL HN (N - 1) 0 lo a (vmap RtoC (mkVec (L - lo) (fun i => draws r (b + i)))) c Hlo' ltac:(lia) ltac:(lia) Hc eq_refl) as (a' & E & Hb).
      unfold axis. rewrite E. cbn [bind]. exists a'. split; [reflexivity|]. apply (holds3_ext L N _ _ _ Hb). intros n' el m Hn' Hel Hm.
      unfold V, flmn_value, flmn_source, primary3. destruct (Z.eqb_spec n' 0) as [-> |]; cbn [andb orb negb]; change (- 0) with 0.
      * fold lo. destruct (Z.eqb_spec m 0) as [-> |]; cbn [andb orb negb]; [|reflexivity]. zb; try reflexivity.
        cbn [value vmap vat]. f_equal. f_equal. unfold b. ring.
      * zb; reflexivity.
    + destruct (complex_normal_ok (mkRng (draws r) b) (L - lo)) as (v & Ev & Lv & Vv); [lia|]. rewrite Ev. cbn [bind draws used] in *.
      destruct (axis3_ok L N HL HN (N - 1 + n) n lo a v c Hlo' eq_refl ltac:(lia) Hc Lv) as (a1 & E1 & H1). unfold axis. rewrite E1. cbn [bind].
      destruct (axis3_read L N HL HN (N - 1 + n) n lo a1 _ Hlo' eq_refl ltac:(lia) H1) as (z & Ez & Lz & Vz). rewrite Ez. cbn [bind].
      destruct (axis3_ok L N HL HN (N - 1 - n) (- n) lo a1 (vmap (fun z => (RtoC (sgn n) * Cconj z)%C) z) _ Hlo' ltac:(lia) ltac:(lia) H1 Lz) as (a2 & E2 & H2).
      rewrite E2. cbn [bind]. exists a2. split.
      { unfold axis_draws. fold lo. zb. do 3 f_equal. }
      apply (holds3_ext L N _ _ _ H2). intros n' el m Hn' Hel Hm. unfold V, flmn_value, flmn_source, primary3.
      destruct (Z.eqb_spec m 0) as [-> |]; cbn [andb orb negb]; [|rewrite !andb_false_r; reflexivity].
      destruct (Z.eqb_spec n' (- n)) as [-> |]; cbn [andb orb negb].
      * replace (- - n) with n by lia. replace (- 0) with 0 by lia. fold lo. zb; try reflexivity; cbn [vmap vat];
        (rewrite Vz by lia; rewrite !Z.eqb_refl; zb; rewrite Vv; cbn [value]; rewrite Z.add_0_l, sgn_opp; unfold b; do 3 f_equal; f_equal; ring).
      * destruct (Z.eqb_spec n' n) as [-> |]; cbn [andb orb negb]; [|reflexivity]. fold lo. zb; try reflexivity;
        (rewrite Vv; cbn [value]; unfold b; f_equal; f_equal; ring).
    + exists a. split; [unfold axis_draws; zb; now rewrite Z.add_0_r|]. apply (holds3_ext L N _ _ _ Hc). intros n' el m Hn' Hel Hm.
      zb; rewrite ?andb_false_r; reflexivity.
  - destruct (complex_normal_ok (mkRng (draws r) b) (L - lo)) as (v & Ev & Lv & Vv); [lia|]. rewrite Ev. cbn [bind draws used] in *.
    destruct (axis3_ok L N HL HN (N - 1 + n) n lo a v c Hlo' eq_refl ltac:(lia) Hc Lv) as (a1 & E1 & H1). unfold axis. rewrite E1. cbn [bind].
    exists a1. split; [reflexivity|]. apply (holds3_ext L N _ _ _ H1). intros n' el m Hn' Hel Hm. unfold V, flmn_value, flmn_source. cbn [andb orb negb].
    destruct (Z.eqb_spec m 0) as [-> |]; cbn [andb orb negb]; [|now rewrite andb_false_r].
    destruct (Z.eqb_spec n' n) as [-> |]; cbn [andb orb negb]; [|reflexivity]. fold lo. zb; try reflexivity.
    rewrite Vv. cbn [value]. unfold b. f_equal; f_equal; ring.
Qed.

Lemma flmn_value_out g k reality L N Lo n el m : el < low3 Lo n \/ el < Z.abs m -> flmn_value g k reality L N Lo n el m = RtoC 0.
Proof.
  intros H. unfold flmn_value, flmn_source, low3 in *. rewrite !Z.abs_opp.
  assert (E : (el <? Z.max Lo (Z.abs n)) || (el <? Z.abs m) = true) by (apply orb_true_iff; rewrite !Z.ltb_lt; exact H).
  rewrite E. cbn [value]. destruct (reality && negb (primary3 n m)); [apply C_eq; cbn; ring|reflexivity].
Qed.

Lemma generate_plane_ok r L N Lo reality n (a : ndarray C) : 1 <= L -> 1 <= N -> - N < n < N -> low3 Lo n <= L ->
  let V := flmn_value (draws r) (used r) reality L N Lo in
  holds_coefficients3 L N a (fun n' el m => if written reality n n' m then V n' el m else RtoC 0) ->
  exists a', generate_plane L N Lo reality n a (mkRng (draws r) (used r + plane_start reality L N Lo n))
      = Ok (a', mkRng (draws r) (used r + plane_start reality L N Lo (n + 1))) /\
    holds_coefficients3 L N a' (fun n' el m => if written reality (n + 1) n' m then V n' el m else RtoC 0).
Proof.
  intros HL HN Hn Hlo V Ha. unfold generate_plane. change (Z.max Lo (Z.abs n)) with (low3 Lo n).
  destruct (axis_step r L N Lo reality n a HL HN Hn Hlo _ Ha) as (a1 & E1 & H1). cbn zeta in E1, H1. rewrite E1. clear E1. cbn [bind]. fold V in H1.
  set (lo := low3 Lo n) in *. assert (Hlo' : 0 <= lo <= L) by (unfold lo, low3 in *; lia).
  rewrite indices_eq by lia. set (ix := positive_orders lo L). assert (Hc := positive_orders_length lo L Hlo'). fold ix in Hc.
  set (b := used r + plane_start reality L N Lo n + axis_draws reality L Lo n) in *.
  destruct (complex_normal_ok (mkRng (draws r) b) (Z.of_nat (List.length ix))) as (v & Ev & Lv & Vv); [lia|].
  rewrite Ev. cbn [bind draws used] in *.
  destruct (side3_ok L N HL HN (N - 1 + n) n lo 1 a1 v _ (fun el m => V n el m) Hlo' eq_refl Hn ltac:(auto) H1 Lv) as (a2 & E2 & H2).
  { intros k Hk. assert (P := positive_orders_place lo L k Hlo' Hk). cbn zeta in P. assert (I := nth_In _ (0, 0) Hk).
    rewrite Vv, Hc. destruct (nth k (positive_orders lo L) (0, 0)) as [el m]. apply in_positive_orders in I. cbn [fst snd] in *.
    unfold V, flmn_value, flmn_source, primary3. fold lo. destruct (Z.ltb_spec 0 m); [|lia]. cbn [orb negb]. rewrite andb_false_r. zb.
    cbn [value]. rewrite P. unfold b. f_equal; f_equal; ring. }
  rewrite sides3_pos in E2. fold ix in E2. rewrite E2. cbn [bind].
  destruct reality.
  - destruct (side3_read L N HL HN (N - 1 + n) n lo a2 _ Hlo' eq_refl Hn H2) as (z & Ez & Lz & Vz). fold ix in Ez. rewrite Ez. cbn [bind].
    destruct (side3_ok L N HL HN (N - 1 - n) (- n) lo (-1) a2
      (mkVec (vlen z) (fun i => (RtoC (sgn (snd (nth (Z.to_nat i) ix (0, 0)) + n)) * Cconj (vat z i))%C)) _
      (fun el m => V (- n) el (- m)) Hlo' ltac:(lia) ltac:(lia) ltac:(auto) H2 Lz) as (a3 & E3 & H3).
    { intros k Hk. cbn [vat]. rewrite Nat2Z.id, Vz by exact Hk. assert (I := nth_In _ (0, 0) Hk). fold ix in I. fold ix.
      destruct (nth k ix (0, 0)) as [el m]. apply in_positive_orders in I. cbn [fst snd]. rewrite Z.eqb_refl, Z.mul_1_l.
      destruct (Z.leb_spec lo el); [|lia]. destruct (Z.ltb_spec 0 m); [|lia]. destruct (Z.leb_spec m el); [|lia]. cbn [andb].
      unfold V, flmn_value, primary3. zb; rewrite !Z.opp_involutive; replace (- m + - n) with (- (m + n)) by ring; now rewrite sgn_opp. }
    rewrite sides3_neg in E3. fold ix in E3. rewrite E3. cbn [bind]. exists a3. split.
    + rewrite plane_start_succ by lia. unfold plane_draws. fold lo. rewrite Hc. unfold b. do 3 f_equal. ring.
    + apply (holds3_ext L N _ _ _ H3). intros n' el m Hn' Hel Hm. cbn [negb orb andb].
      replace (- (-1 * m)) with m by ring. rewrite !Z.mul_1_l. replace (-1 * m) with (- m) by ring.
      unfold written, primary3. cbn [andb].
      assert (Hz := flmn_value_out (draws r) (used r) true L N Lo n' el m). fold V in Hz.
      assert (Hlo2 : n' = n \/ n' = - n -> low3 Lo n' = lo) by (unfold lo, low3; intros [-> | ->]; rewrite ?Z.abs_opp; reflexivity).
      destruct (Z.eqb_spec n' n) as [Q1|Q1]; destruct (Z.eqb_spec n' (- n)) as [Q2|Q2]; cbn [andb orb negb]; rewrite ?andb_false_r; cbn [orb].
      1-3: rewrite Hlo2 in Hz by tauto.
      4: zb; reflexivity.
      all: zb; try reflexivity; try (apply Hz; lia); try (symmetry; apply Hz; lia); try (now rewrite <- Q1); try (now rewrite <- Q2).
  - destruct (complex_normal_ok (mkRng (draws r) (b + 2 * Z.of_nat (List.length ix))) (Z.of_nat (List.length ix))) as (w & Ew & Lw & Vw); [lia|].
    rewrite Ew. cbn [bind draws used] in *.
    destruct (side3_ok L N HL HN (N - 1 + n) n lo (-1) a2 w _ (fun el m => V n el (- m)) Hlo' eq_refl Hn ltac:(auto) H2 Lw) as (a3 & E3 & H3).
    { intros k Hk. assert (P := positive_orders_place lo L k Hlo' Hk). cbn zeta in P. assert (I := nth_In _ (0, 0) Hk).
      rewrite Vw, Hc. destruct (nth k (positive_orders lo L) (0, 0)) as [el m]. apply in_positive_orders in I. cbn [fst snd] in *.
      unfold V, flmn_value, flmn_source. fold lo. cbn [andb]. zb. cbn [value]. rewrite Z.opp_involutive, P. unfold b. f_equal; f_equal; ring. }
    rewrite sides3_neg in E3. fold ix in E3. rewrite E3. cbn [bind]. exists a3. split.
    + rewrite plane_start_succ by lia. unfold plane_draws. fold lo. rewrite Hc. unfold b. do 3 f_equal. ring.
    + apply (holds3_ext L N _ _ _ H3). intros n' el m Hn' Hel Hm. cbn [negb orb andb].
      replace (- (-1 * m)) with m by ring. rewrite !Z.mul_1_l. replace (-1 * m) with (- m) by ring.
      unfold written. cbn [andb].
      assert (Hz := flmn_value_out (draws r) (used r) false L N Lo n' el m). fold V in Hz.
      destruct (Z.eqb_spec n' n) as [-> |Q1]; cbn [andb orb]; rewrite ?andb_false_r; cbn [andb].
      * fold lo in Hz. zb; try reflexivity; try (apply Hz; lia); try (symmetry; apply Hz; lia).
      * zb; reflexivity.
Qed.

Lemma generate_flmn_ok r L N Lo reality : 1 <= L -> 1 <= N -> Z.max Lo (N - 1) <= L ->
  exists flmn, generate_flmn r L N Lo reality = Ok (flmn, mkRng (draws r) (used r + flmn_draws reality L N Lo)) /\
    holds_coefficients3 L N flmn (flmn_value (draws r) (used r) reality L N Lo).
Proof.
  intros HL HN Hlo. unfold generate_flmn. destruct (Z.ltb_spec L 1); [lia|]. destruct (Z.ltb_spec N 1); [lia|]. cbn [orb bind].
  set (V := flmn_value (draws r) (used r) reality L N Lo).
  destruct (foldM_inv (fun n s => exists a, s = (a, mkRng (draws r) (used r + plane_start reality L N Lo n)) /\
      holds_coefficients3 L N a (fun n' el m => if written reality n n' m then V n' el m else RtoC 0))
    (fun '(flmn, r) n => generate_plane L N Lo reality n flmn r) (- N + 1) N (zeros (RtoC 0) (flmn_shape L N), r)) as (s & Es & a & -> & Ha).
  - lia.
  - exists (zeros (RtoC 0) (flmn_shape L N)). split.
    + unfold plane_start. rewrite zrange_nil by lia. cbn [zsum]. rewrite Z.add_0_r. now destruct r.
    + split; [reflexivity|]. intros n el m Hn Hel Hm. unfold written, primary3.
      assert (W : (if reality && negb ((0 <? m) || (m =? 0) && (0 <=? n)) then - n <? - N + 1 else n <? - N + 1) = false) by (destruct reality; zb; reflexivity).
      rewrite W. reflexivity.
  - intros n s Hn (a & -> & Ha). destruct (generate_plane_ok r L N Lo reality n a HL HN ltac:(lia) ltac:(unfold low3; lia) Ha) as (a' & E & H').
    exists (a', mkRng (draws r) (used r + plane_start reality L N Lo (n + 1))). split; [exact E|]. exists a'. auto.
  - exists a. split; [exact Es|]. apply (holds3_ext L N _ _ _ Ha). intros n el m Hn Hel Hm. unfold written, primary3.
    destruct reality; zb; reflexivity.
Qed.

(** ** Different coefficients are made of different draws *)
Lemma place_range lo L el m : 0 <= lo -> lo <= el < L -> 1 <= m <= el -> 0 <= pair_place lo el m < pair_count lo L.
Proof.
  intros H0 H1 H2. unfold pair_place, pair_count. assert (A := tri_mono lo el ltac:(lia)). assert (B := tri_mono (el + 1) L ltac:(lia)).
  rewrite tri_succ in B. lia.
Qed.

Lemma place_inj lo el m el' m' : 1 <= m <= el -> 1 <= m' <= el' -> pair_place lo el m = pair_place lo el' m' -> el = el' /\ m = m'.
Proof.
  intros H H' E. unfold pair_place in E. destruct (Z.lt_trichotomy el el') as [Q|[Q|Q]].
  - assert (B := tri_mono (el + 1) el' ltac:(lia)). rewrite tri_succ in B. lia.
  - subst. lia.
  - assert (B := tri_mono (el' + 1) el ltac:(lia)). rewrite tri_succ in B. lia.
Qed.

Ltac zbh H := repeat match type of H with
  | context [?a =? ?b] => destruct (Z.eqb_spec a b); try lia
  | context [?a <? ?b] => destruct (Z.ltb_spec a b); try lia
  end; cbn [andb orb negb uses] in H.

(** where the draws of one block lie: k is the block, p the place in it *)
Lemma flm_uses lo L el m i : 0 <= lo <= L -> el < L -> uses (flm_source lo L el m) i ->
  lo <= el /\ Z.abs m <= el /\
  (m = 0 /\ i = el - lo \/
   0 < m /\ (i = L - lo + pair_place lo el m \/ i = L - lo + pair_count lo L + pair_place lo el m) \/
   m < 0 /\ (i = L - lo + 2 * pair_count lo L + pair_place lo el (- m) \/ i = L - lo + 3 * pair_count lo L + pair_place lo el (- m))).
Proof. intros Hlo Hel H. unfold flm_source in H. zbh H; try tauto; lia. Qed.

Lemma flm_uses_range lo L reality el m i : 0 <= lo <= L -> el < L -> (reality = true -> 0 <= m) -> uses (flm_source lo L el m) i ->
  0 <= i < flm_draws lo L reality.
Proof.
  intros Hlo Hel Hr H. assert (HM : 0 <= pair_count lo L) by (assert (A := tri_mono lo L Hlo); unfold pair_count; lia).
  apply flm_uses in H as (H1 & H2 & [[H3 H4]|[[H3 H4]|[H3 H4]]]); try lia; unfold flm_draws.
  - destruct reality; lia.
  - assert (P := place_range lo L el m ltac:(lia) ltac:(lia) ltac:(lia)). destruct reality; lia.
  - assert (P := place_range lo L el (- m) ltac:(lia) ltac:(lia) ltac:(lia)). destruct reality; [|lia]. specialize (Hr eq_refl). lia.
Qed.

Lemma flm_uses_once lo L el m el' m' i : 0 <= lo <= L -> el < L -> el' < L ->
  uses (flm_source lo L el m) i -> uses (flm_source lo L el' m') i -> el = el' /\ m = m'.
Proof.
  intros Hlo Hel Hel' H H'. apply flm_uses in H; try lia. apply flm_uses in H'; try lia.
  destruct H as (H1 & H2 & H3), H' as (H1' & H2' & H3').
  assert (P := fun Q => place_range lo L el m ltac:(lia) ltac:(lia) Q). assert (P' := fun Q => place_range lo L el' m' ltac:(lia) ltac:(lia) Q).
  assert (R := fun Q => place_range lo L el (- m) ltac:(lia) ltac:(lia) Q). assert (R' := fun Q => place_range lo L el' (- m') ltac:(lia) ltac:(lia) Q).
  destruct H3 as [[H3 H4]|[[H3 H4]|[H3 H4]]], H3' as [[H3' H4']|[[H3' H4']|[H3' H4']]]; try lia.
  - apply (place_inj lo); lia.
  - assert (el = el' /\ - m = - m') by (apply (place_inj lo); lia). lia.
Qed.

Lemma zsum_app f l l' : zsum f (l ++ l') = zsum f l + zsum f l'.
Proof. induction l as [|x l IH]; cbn; lia. Qed.

Lemma plane_draws_nonneg reality L Lo n : low3 Lo n <= L -> 0 <= plane_draws reality L Lo n.
Proof.
  intros H. assert (A : 0 <= low3 Lo n) by (unfold low3; lia). assert (B := tri_mono (low3 Lo n) L ltac:(lia)).
  unfold plane_draws, axis_draws, pair_count. destruct reality; zb; lia.
Qed.

Lemma plane_start_mono reality L N Lo n n' : - N + 1 <= n <= n' -> n' <= N -> Z.max Lo (N - 1) <= L ->
  plane_start reality L N Lo n <= plane_start reality L N Lo n'.
Proof.
  intros H1 H2 H3. unfold plane_start. rewrite (zrange_app (- N + 1) n n'), zsum_app by lia.
  assert (0 <= zsum (plane_draws reality L Lo) (zrange n n')); [|lia].
  assert (G : forall l, (forall x, In x l -> n <= x < n') -> 0 <= zsum (plane_draws reality L Lo) l).
  { induction l as [|x l IH]; intros Hl; cbn; [lia|]. assert (Hx := Hl x ltac:(cbn; auto)).
    assert (0 <= plane_draws reality L Lo x) by (apply plane_draws_nonneg; unfold low3; lia).
    assert (0 <= zsum (plane_draws reality L Lo) l) by (apply IH; intros; apply Hl; cbn; auto). lia. }
  apply G. intros x Hx. now apply in_zrange in Hx.
Qed.

Lemma flmn_uses reality L N Lo n el m i : low3 Lo n <= L -> el < L -> uses (flmn_source reality L N Lo n el m) i ->
  let lo := low3 Lo n in let b := plane_start reality L N Lo n in let a := axis_draws reality L Lo n in
  lo <= el /\ Z.abs m <= el /\
  (m = 0 /\ (i = b + (el - lo) \/ ~ (reality = true /\ n = 0) /\ i = b + (L - lo) + (el - lo)) \/
   0 < m /\ (i = b + a + pair_place lo el m \/ i = b + a + pair_count lo L + pair_place lo el m) \/
   m < 0 /\ (i = b + a + 2 * pair_count lo L + pair_place lo el (- m) \/ i = b + a + 3 * pair_count lo L + pair_place lo el (- m))).
Proof.
  intros Hlo Hel H lo b a. unfold flmn_source in H. fold lo b a in H. destruct reality; cbn [andb] in H; zbh H; try tauto; intuition lia.
Qed.

Lemma flmn_uses_block reality L N Lo n el m i : Z.max Lo (N - 1) <= L -> - N < n < N -> el < L ->
  (reality = true -> primary3 n m = true) -> uses (flmn_source reality L N Lo n el m) i ->
  plane_start reality L N Lo n <= i < plane_start reality L N Lo (n + 1).
Proof.
  intros HL Hn Hel Hr H. assert (Hlo : low3 Lo n <= L) by (unfold low3; lia). assert (Hlo0 : 0 <= low3 Lo n) by (unfold low3; lia).
  rewrite plane_start_succ by lia. apply flmn_uses in H as (H1 & H2 & H3); try lia. cbn zeta in H3. unfold plane_draws.
  assert (HM : 0 <= pair_count (low3 Lo n) L) by (assert (A := tri_mono (low3 Lo n) L ltac:(lia)); unfold pair_count; lia).
  assert (P := fun Q => place_range (low3 Lo n) L el m ltac:(lia) ltac:(lia) Q). assert (R := fun Q => place_range (low3 Lo n) L el (- m) ltac:(lia) ltac:(lia) Q).
  assert (HA : 0 <= axis_draws reality L Lo n) by (unfold axis_draws; destruct reality; zb; lia).
  destruct H3 as [[H3 H4]|[[H3 H4]|[H3 H4]]].
  - unfold axis_draws in *. destruct reality.
    + specialize (Hr eq_refl). unfold primary3 in Hr. subst m. cbn in Hr. apply Z.leb_le in Hr. zb; intuition lia.
    + intuition lia.
  - destruct reality; lia.
  - destruct reality; [|lia]. specialize (Hr eq_refl). unfold primary3 in Hr. destruct (Z.ltb_spec 0 m); [lia|]. destruct (Z.eqb_spec m 0); [lia|discriminate].
Qed.

Lemma flmn_uses_once reality L N Lo n el m n' el' m' i : Z.max Lo (N - 1) <= L -> - N < n < N -> - N < n' < N -> el < L -> el' < L ->
  (reality = true -> primary3 n m = true /\ primary3 n' m' = true) ->
  uses (flmn_source reality L N Lo n el m) i -> uses (flmn_source reality L N Lo n' el' m') i -> n = n' /\ el = el' /\ m = m'.
Proof.
  intros HL Hn Hn' Hel Hel' Hr H H'.
  assert (B := flmn_uses_block reality L N Lo n el m i HL Hn Hel ltac:(tauto) H).
  assert (B' := flmn_uses_block reality L N Lo n' el' m' i HL Hn' Hel' ltac:(tauto) H').
  assert (n = n') as <-.
  { destruct (Z.lt_trichotomy n n') as [Q|[Q|Q]]; [|exact Q|].
    - assert (A := plane_start_mono reality L N Lo (n + 1) n' ltac:(lia) ltac:(lia) HL). lia.
    - assert (A := plane_start_mono reality L N Lo (n' + 1) n ltac:(lia) ltac:(lia) HL). lia. }
  split; [reflexivity|]. clear B B'.
  assert (Hlo : low3 Lo n <= L) by (unfold low3; lia). assert (Hlo0 : 0 <= low3 Lo n) by (unfold low3; lia).
  apply flmn_uses in H as (H1 & H2 & H3); try lia. apply flmn_uses in H' as (H1' & H2' & H3'); try lia. cbn zeta in *.
  set (lo := low3 Lo n) in *. set (b := plane_start reality L N Lo n) in *.
  assert (P := fun Q => place_range lo L el m ltac:(lia) ltac:(lia) Q). assert (P' := fun Q => place_range lo L el' m' ltac:(lia) ltac:(lia) Q).
  assert (R := fun Q => place_range lo L el (- m) ltac:(lia) ltac:(lia) Q). assert (R' := fun Q => place_range lo L el' (- m') ltac:(lia) ltac:(lia) Q).
  assert (HA : m = 0 \/ m' = 0 -> (axis_draws reality L Lo n = 2 * (L - lo) \/ reality = true /\ n = 0 /\ axis_draws reality L Lo n = L - lo)).
  { intros Hm. unfold axis_draws. fold lo. destruct reality; [|auto]. destruct (Hr eq_refl) as [R1 R2]. unfold primary3 in R1, R2.
    destruct (Z.eqb_spec n 0); [tauto|]. destruct (Z.ltb_spec 0 n); [tauto|]. exfalso.
    destruct (Z.leb_spec 0 n); [lia|]. rewrite !andb_false_r, !orb_false_r in *. apply Z.ltb_lt in R1, R2. lia. }
  destruct H3 as [[H3 H4]|[[H3 H4]|[H3 H4]]], H3' as [[H3' H4']|[[H3' H4']|[H3' H4']]]; try lia; try (specialize (HA ltac:(auto)); intuition lia).
  - apply (place_inj lo); lia.
  - assert (el = el' /\ - m = - m') by (apply (place_inj lo); lia). lia.
Qed.

(** ** Consequences *)
Lemma flm_value_zero g k reality lo L el m : el < lo \/ el < Z.abs m -> flm_value g k reality lo L el m = RtoC 0.
Proof.
  intros H. unfold flm_value, flm_source. rewrite Z.abs_opp.
  assert (E : (el <? lo) || (el <? Z.abs m) = true) by (apply orb_true_iff; rewrite !Z.ltb_lt; exact H).
  rewrite E. cbn [value]. destruct (reality && (m <? 0)); [apply C_eq; cbn; ring|reflexivity].
Qed.

Lemma flm_value_hermitian g k lo L : hermitian L (flm_value g k true lo L).
Proof.
  intros el m Hel Hm. unfold flm_value. cbn [andb]. destruct (Z.ltb_spec (- m) 0), (Z.ltb_spec m 0); try lia.
  - now rewrite Z.opp_involutive, sgn_opp.
  - rewrite Cconj_mult, Cconj_R, Cconj_conj, Cmult_assoc, <- RtoC_mult, sgn_sq, Cmult_1_l. reflexivity.
  - replace m with 0 by lia. change (- 0) with 0. unfold flm_source. cbn [Z.abs].
    destruct ((el <? lo) || (el <? 0)); cbn; apply C_eq; cbn; ring.
Qed.

Lemma flmn_value_hermitian g k L N Lo : hermitian3 L N (flmn_value g k true L N Lo).
Proof.
  intros n l m Hn Hl Hm. unfold flmn_value. cbn [andb]. rewrite !Z.opp_involutive.
  replace (- m + - n) with (- (m + n)) by ring. rewrite sgn_opp.
  assert (E : primary3 n m = true /\ primary3 (- n) (- m) = false \/ primary3 n m = false /\ primary3 (- n) (- m) = true \/ n = 0 /\ m = 0).
  { unfold primary3. destruct (Z.eq_dec n 0), (Z.eq_dec m 0); [tauto| | |]; zb; tauto. }
  destruct E as [[E1 E2]|[[E1 E2]|[-> ->]]]; try (rewrite E1, E2; cbn [negb]); [reflexivity| |].
  - rewrite Cconj_mult, Cconj_R, Cconj_conj, Cmult_assoc, <- RtoC_mult, sgn_sq, Cmult_1_l. reflexivity.
  - change (- 0) with 0. unfold primary3. cbn [Z.ltb Z.eqb Z.leb Z.compare orb andb negb]. unfold flmn_source. cbn [Z.abs Z.eqb andb].
    destruct ((l <? low3 Lo 0) || (l <? 0)); apply C_eq; cbn; ring.
Qed.
